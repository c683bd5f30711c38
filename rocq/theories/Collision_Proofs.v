(** Proofs for the collision intervals. *)
From Coq Require Import Bool Reals List Lra Lia.
From Verif Require Import Collision_Model Collision_Spec.
Import ListNotations.
Open Scope R_scope.

Section Proofs.
  Variable distance : R -> R.
  Variable max_radius2 : R.
  Variable Brent : R -> R -> R.
  Hypothesis BR : finds_roots distance max_radius2 Brent.
  Variable t_min : R.
  Notation collisions := (collisions distance max_radius2).
  Notation extrema_from := (extrema_from distance).
  Notation alternating := (alternating distance).

  Lemma anomalous_alternating : forall times aa ap t up, is_anomalous distance aa ap (distance t) times = false ->
    (up = true -> match times with [] => True | u :: _ => distance t < distance u end) -> (up = false -> match times with [] => True | u :: _ => distance u < distance t end) -> alternating up t times.
  Proof.
    induction times as [|u times IH]; intros aa ap t up A P Q; [exact I |]. cbn [is_anomalous Collision_Spec.alternating] in *. destruct up.
    - specialize (P eq_refl). split; [exact P |]. destruct (Rlt_dec (distance t) (distance u)); [| contradiction]. destruct aa; [discriminate |].
      apply (IH _ _ _ _ A); [discriminate |]. intros _. destruct times as [|v times]; [exact I |]. cbn [is_anomalous] in A.
      destruct (Rlt_dec (distance u) (distance v)); [discriminate |]. destruct (Rlt_dec (distance v) (distance u)); [assumption | discriminate].
    - specialize (Q eq_refl). split; [exact Q |]. destruct (Rlt_dec (distance t) (distance u)); [lra |]. destruct (Rlt_dec (distance u) (distance t)); [| contradiction]. destruct ap; [discriminate |].
      apply (IH _ _ _ _ A); [| discriminate]. intros _. destruct times as [|v times]; [exact I |]. cbn [is_anomalous] in A.
      destruct (Rlt_dec (distance u) (distance v)); [assumption |]. destruct (Rlt_dec (distance v) (distance u)); discriminate.
  Qed.

  Lemma extrema_order : forall times a b, extrema_from a times b -> a <= b.
  Proof. induction times as [|t times IH]; intros a b H; cbn in H; [lra |]. destruct H as (A & _ & H). specialize (IH _ _ H). lra. Qed.
  Lemma ordered_lower : forall l a b c, a <= b -> ordered b c l -> ordered a c l.
  Proof. intros [|[m x] l] a b c L H; cbn in *; [exact I |]. destruct H as (H1 & H2). split; [lra | exact H2]. Qed.
  Lemma collisions_lower : forall l a b c, a <= b -> (forall t, a <= t <= b -> max_radius2 <= distance t) -> collisions b c l -> collisions a c l.
  Proof.
    intros l a b c L H (O & C & S). split; [exact (ordered_lower _ _ _ _ L O) |]. split; [| exact S]. intros t T D.
    destruct (Rle_dec b t) as [B | B]; [apply C; [lra | exact D] |]. specialize (H t ltac:(lra)). lra.
  Qed.
  Lemma collisions_one : forall a b, a <= b -> (forall t, a <= t <= b -> distance t <= max_radius2) -> collisions a b [(a, b)].
  Proof.
    intros a b L H. split; [cbn; lra |]. split; [intros t T _; exists (a, b); split; [left; reflexivity | exact T] |].
    intros t (i & [<- | []] & T). exact (H t T).
  Qed.
  Lemma collisions_cons : forall m x a b l, m <= x -> x < a -> a <= b -> (forall t, m <= t <= x -> distance t <= max_radius2) -> (forall t, x < t <= a -> max_radius2 <= distance t) ->
    collisions a b l -> collisions m b ((m, x) :: l).
  Proof.
    intros m x a b l M X AB H K (O & C & S). split; [| split].
    - cbn [ordered]. split; [lra |]. split; [lra |]. split; [| apply (ordered_lower _ x a b ltac:(lra) O)]. destruct l as [|[m' x'] l]; [exact I |]. cbn in O. lra.
    - intros t T D. destruct (Rle_dec t x) as [Tx | Tx]; [exists (m, x); split; [left; reflexivity | cbn; lra] |].
      destruct (Rle_dec a t) as [Ta | Ta]; [| specialize (K t ltac:(lra)); lra]. destruct (C t ltac:(lra) D) as (i & I & B). exists i. split; [right; exact I | exact B].
    - intros t (i & [<- | I] & B); [exact (H t B) |]. apply S. exists i. split; assumption.
  Qed.

  Lemma inner_cons : forall m p a times, inner distance max_radius2 Brent t_min m p (a :: times) =
    if Rle_dec p a then
      if Rlt_dec max_radius2 (distance a) then
        match outer distance max_radius2 Brent t_min (Some a) times with Some intervals => Some ((m, Brent p a) :: intervals) | None => None end
      else match times with [] => Some [(m, a)] | q :: times => inner distance max_radius2 Brent t_min m q times end
    else None.
  Proof. reflexivity. Qed.
  Lemma loops_ok : forall n,
    (forall times a t_max, (length times <= n)%nat -> extrema_from a times t_max -> alternating false a times -> max_radius2 < distance a \/ (a = t_min /\ times <> []) ->
       exists l, outer distance max_radius2 Brent t_min (Some a) times = Some l /\ collisions a t_max l) /\
    (forall times m p t_max, (length times <= n)%nat -> extrema_from p times t_max -> alternating true p times -> distance p < max_radius2 -> m <= p ->
       (forall t, m <= t <= p -> distance t <= max_radius2) ->
       exists l, inner distance max_radius2 Brent t_min m p times = Some l /\ collisions m t_max l).
  Proof.
    induction n as [n IH] using lt_wf_ind. split.
    - intros [|p times] a t_max L E A Q.
      + cbn [outer]. exists []. split; [reflexivity |]. cbn in E. subst t_max. split; [exact I |]. split; [| intros t (i & [] & _)].
        intros t T D. assert (t = a) by lra. subst t. destruct Q as [Q | [_ Q]]; [lra | congruence].
      + cbn [outer]. cbn [Collision_Spec.extrema_from] in E. destruct E as (AP & [_ Mo] & E). cbn [Collision_Spec.alternating negb] in A. destruct A as [DA A]. specialize (Mo DA). cbn [length] in L.
        pose proof (extrema_order _ _ _ E) as PM. destruct (Rlt_dec (distance p) max_radius2) as [Dp | Dp].
        * destruct (Rle_dec a p) as [_ |]; [| lra]. destruct (Rlt_dec max_radius2 (distance a)) as [Da | Da].
          -- destruct (BR a p ltac:(lra) ltac:(right; lra)) as [B1 B2]. set (m := Brent a p) in *.
             destruct (proj2 (IH (length times) ltac:(lia)) times m p t_max ltac:(lia) E A Dp ltac:(lra)) as (l & O & C).
             { intros t T. rewrite <- B2. apply Mo; lra. }
             exists l. split; [exact O |]. apply (collisions_lower l a m t_max ltac:(lra)); [| exact C]. intros t T. rewrite <- B2. apply Mo; lra.
          -- destruct Q as [Q | [Q _]]; [contradiction |]. destruct (Req_EM_T a t_min) as [_ |]; [| contradiction].
             destruct (proj2 (IH (length times) ltac:(lia)) times a p t_max ltac:(lia) E A Dp ltac:(lra)) as (l & O & C).
             { intros t T. apply Rle_trans with (distance a); [apply Mo; lra | lra]. }
             exists l. split; [exact O | exact C].
        * assert (H : forall t, a <= t <= p -> max_radius2 <= distance t) by (intros t T; apply Rle_trans with (distance p); [lra | apply Mo; lra]).
          destruct times as [|q times].
          -- exists []. split; [reflexivity |]. cbn in E. subst t_max. split; [exact I |]. split; [| intros t (i & [] & _)]. intros t T D. specialize (H t T). lra.
          -- cbn [Collision_Spec.extrema_from] in E. destruct E as (PQ & [Mq _] & E). cbn [Collision_Spec.alternating negb] in A. destruct A as [DQ A]. specialize (Mq DQ). cbn [length] in L.
             destruct (proj1 (IH (length times) ltac:(lia)) times q t_max ltac:(lia) E A ltac:(left; lra)) as (l & O & C). exists l. split; [exact O |].
             apply (collisions_lower l a q t_max ltac:(lra)); [| exact C]. intros t T. destruct (Rle_dec t p); [apply H; lra |]. apply Rle_trans with (distance p); [lra | apply Mq; lra].
    - intros [|a times] m p t_max L E A Dp MP H.
      + cbn [inner]. exists [(m, p)]. split; [reflexivity |]. cbn in E. subst t_max. exact (collisions_one m p MP H).
      + rewrite inner_cons. cbn [Collision_Spec.extrema_from] in E. destruct E as (PA & [Mo _] & E). cbn [Collision_Spec.alternating negb] in A. destruct A as [DA A]. specialize (Mo DA). cbn [length] in L.
        pose proof (extrema_order _ _ _ E) as AM. destruct (Rle_dec p a) as [_ |]; [| lra]. destruct (Rlt_dec max_radius2 (distance a)) as [Da | Da].
        * destruct (BR p a ltac:(lra) ltac:(left; lra)) as [B1 B2]. set (x := Brent p a) in *.
          destruct (proj1 (IH (length times) ltac:(lia)) times a t_max ltac:(lia) E A ltac:(left; lra)) as (l & O & C). rewrite O. exists ((m, x) :: l). split; [reflexivity |].
          assert (x <> a) by (intros X; rewrite X in B2; lra).
          apply (collisions_cons m x a t_max l); [lra | lra | lra | | | exact C].
          -- intros t T. destruct (Rle_dec t p); [apply H; lra |]. rewrite <- B2. apply Mo; lra.
          -- intros t T. rewrite <- B2. apply Mo; lra.
        * assert (H2 : forall t, m <= t <= a -> distance t <= max_radius2).
          { intros t T. destruct (Rle_dec t p); [apply H; lra |]. apply Rle_trans with (distance a); [apply Mo; lra | lra]. }
          destruct times as [|q times].
          -- exists [(m, a)]. split; [reflexivity |]. cbn in E. subst t_max. apply (collisions_one m a); [lra | exact H2].
          -- cbn [Collision_Spec.extrema_from] in E. destruct E as (AQ & [_ Mq] & E). cbn [Collision_Spec.alternating negb] in A. destruct A as [DQ A]. specialize (Mq DQ). cbn [length] in L.
             apply (proj2 (IH (length times) ltac:(lia)) times m q t_max); [lia | exact E | exact A | lra | lra |].
             intros t T. destruct (Rle_dec t a); [apply H2; lra |]. apply Rle_trans with (distance a); [apply Mq; lra | lra].
  Qed.
  Lemma ordered_consistent : forall l a b, ordered a b l -> consistent l = true.
  Proof.
    induction l as [|[m x] l IH]; intros a b H; [reflexivity |]. cbn [ordered] in H. destruct H as (_ & _ & H & O). pose proof (IH _ _ O) as C. destruct l as [|[m' x'] l]; [reflexivity |].
    cbn [ordered] in O. cbn [consistent] in *. destruct (Rle_dec x m'); [| lra]. destruct (Rle_dec m' x'); [exact C | lra].
  Qed.
  Theorem intervals_ok : forall u others t_max, extrema_from t_min (u :: others) t_max -> (exists up, alternating up t_min (u :: others)) ->
    exists l, ComputeCollisionIntervals distance max_radius2 Brent t_min (t_min :: u :: others) = Some l /\ (collisions t_min t_max l \/ is_anomalous distance false false (distance t_min) (u :: others) = true).
  Proof.
    intros u others t_max E [up A]. unfold ComputeCollisionIntervals. destruct (is_anomalous distance false false (distance t_min) (u :: others)) eqn:X; [exists []; auto |].
    assert (K : exists l, (if Rlt_dec (distance t_min) (distance u) then outer distance max_radius2 Brent t_min None (t_min :: u :: others) else outer distance max_radius2 Brent t_min (Some t_min) (u :: others)) = Some l /\ collisions t_min t_max l).
    { destruct (Rlt_dec (distance t_min) (distance u)) as [D | D].
      - destruct up; [| cbn in A; lra]. cbn [outer]. destruct (Rlt_dec (distance t_min) max_radius2) as [Dp | Dp].
        + destruct (Req_EM_T t_min t_min) as [_ |]; [| contradiction]. apply (proj2 (loops_ok (length (u :: others))) (u :: others) t_min t_min t_max (le_n _) E A Dp (Rle_refl _)).
          intros t T. replace t with t_min by lra. lra.
        + cbn [Collision_Spec.extrema_from Collision_Spec.alternating negb] in E, A. destruct E as (TU & [Mo _] & E). destruct A as [DA A]. specialize (Mo DA).
          destruct (proj1 (loops_ok (length others)) others u t_max (le_n _) E A ltac:(left; lra)) as (l & O & C). exists l. split; [exact O |].
          apply (collisions_lower l t_min u t_max ltac:(lra)); [| exact C]. intros t T. apply Rle_trans with (distance t_min); [lra | apply Mo; lra].
      - destruct up; [cbn in A; lra |]. apply (proj1 (loops_ok (length (u :: others))) (u :: others) t_min t_max (le_n _) E A). right. split; [reflexivity | discriminate]. }
    destruct K as (l & -> & C). exists l. rewrite (ordered_consistent l _ _ (proj1 C)). auto.
  Qed.
  Lemma anomalous_iff : forall u others, is_anomalous distance false false (distance t_min) (u :: others) = false <-> exists up, alternating up t_min (u :: others).
  Proof.
    intros u others. split.
    - intros H. cbn [is_anomalous] in H. destruct (Rlt_dec (distance t_min) (distance u)) as [D | D].
      + exists true. apply (anomalous_alternating (u :: others) false false t_min true); [| intros _; exact D | discriminate]. cbn [is_anomalous]. destruct (Rlt_dec (distance t_min) (distance u)); [exact H | contradiction].
      + destruct (Rlt_dec (distance u) (distance t_min)) as [D' | D']; [| discriminate]. exists false. apply (anomalous_alternating (u :: others) false false t_min false); [| discriminate | intros _; exact D'].
        cbn [is_anomalous]. destruct (Rlt_dec (distance t_min) (distance u)); [contradiction |]. destruct (Rlt_dec (distance u) (distance t_min)); [exact H | contradiction].
    - assert (G : forall times up t aa ap, (up = true -> aa = false) -> (up = false -> ap = false) -> alternating up t times -> is_anomalous distance aa ap (distance t) times = false).
      { induction times as [|v times IH]; intros up t aa ap P Q A; [reflexivity |]. cbn [is_anomalous Collision_Spec.alternating] in *. destruct A as [D A]. destruct up; cbn [negb] in A.
        - destruct (Rlt_dec (distance t) (distance v)); [| contradiction]. rewrite (P eq_refl). apply (IH false v); [discriminate | reflexivity | exact A].
        - destruct (Rlt_dec (distance t) (distance v)); [lra |]. destruct (Rlt_dec (distance v) (distance t)); [| contradiction]. rewrite (Q eq_refl). apply (IH true v); [reflexivity | discriminate | exact A]. }
      intros [up A]. exact (G _ up t_min false false (fun _ => eq_refl) (fun _ => eq_refl) A).
  Qed.
End Proofs.
