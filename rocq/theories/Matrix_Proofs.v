(* Proofs about the substitutions and the two functions Solve. *)
From Coq Require Import ZArith QArith Qcanon Qcabs List Bool Arith Lia Lqa.
From Verif Require Import Matrix_Model Matrix_Spec.
Local Open Scope nat_scope.

(* ------------------------------------------------------------------ sums *)

Lemma sum_ext : forall n f g,
  (forall i, i < n -> f i = g i) -> sum n f = sum n g.
Proof.
  induction n as [|n IH]; intros f g H; cbn [sum]; [reflexivity|].
  rewrite (IH f g), (H n) by (intros; try apply H; lia). reflexivity.
Qed.

Lemma sum_0 : forall n f, (forall i, i < n -> f i = 0%Qc) -> sum n f = 0%Qc.
Proof.
  induction n as [|n IH]; intros f H; cbn [sum]; [reflexivity|].
  rewrite IH, (H n) by (intros; try apply H; lia). ring.
Qed.

Lemma sum_plus : forall n f g,
  sum n (fun i => f i + g i)%Qc = (sum n f + sum n g)%Qc.
Proof.
  induction n as [|n IH]; intros f g; cbn [sum]; [ring|]. rewrite IH. ring.
Qed.

Lemma sum_minus : forall n f g,
  sum n (fun i => f i - g i)%Qc = (sum n f - sum n g)%Qc.
Proof.
  induction n as [|n IH]; intros f g; cbn [sum]; [ring|]. rewrite IH. ring.
Qed.

Lemma sum_scale : forall n c f, sum n (fun i => c * f i)%Qc = (c * sum n f)%Qc.
Proof.
  induction n as [|n IH]; intros c f; cbn [sum]; [ring|]. rewrite IH. ring.
Qed.

Lemma sum_scale_r : forall n c f, sum n (fun i => f i * c)%Qc = (sum n f * c)%Qc.
Proof.
  induction n as [|n IH]; intros c f; cbn [sum]; [ring|]. rewrite IH. ring.
Qed.

Lemma sum_exchange : forall n m f,
  sum n (fun i => sum m (f i)) = sum m (fun j => sum n (fun i => f i j)).
Proof.
  induction n as [|n IH]; intros m f; cbn [sum].
  - symmetry. apply sum_0. reflexivity.
  - rewrite IH, <- sum_plus. reflexivity.
Qed.

Lemma sum_split : forall a b f,
  sum (a + b) f = (sum a f + sum b (fun i => f (a + i)%nat))%Qc.
Proof.
  intros a b f; induction b as [|b IH].
  - rewrite Nat.add_0_r. cbn [sum]. ring.
  - rewrite Nat.add_succ_r. cbn [sum]. rewrite IH. ring.
Qed.

Lemma sum_first : forall n f,
  sum (S n) f = (f 0%nat + sum n (fun i => f (S i)))%Qc.
Proof.
  intros n f. rewrite (sum_split 1 n). cbn. ring.
Qed.

Lemma sum_single : forall n k f,
  k < n -> (forall i, i < n -> i <> k -> f i = 0%Qc) -> sum n f = f k.
Proof.
  induction n as [|n IH]; intros k f Hk H; [lia|].
  cbn [sum]. destruct (Nat.eq_dec k n) as [->|N].
  - rewrite sum_0 by (intros; apply H; lia). ring.
  - rewrite (IH k) by (try (intros; apply H); lia). rewrite (H n) by lia. ring.
Qed.

(* ----------------------------------------------------------------- loops *)

Lemma loop_inv : forall {St} (P : nat -> St -> Prop) (body : nat -> St -> St)
    count a s,
  (forall i s, a <= i < a + count -> P i s -> P (S i) (body i s)) ->
  P a s -> P (a + count) (loop a count body s).
Proof.
  intros St P body count; induction count as [|c IH]; intros a s H Ha; cbn [loop].
  - rewrite Nat.add_0_r. exact Ha.
  - rewrite Nat.add_succ_r, <- Nat.add_succ_l. apply IH.
    + intros; apply H; [lia|assumption].
    + apply H; [lia|assumption].
Qed.

Lemma bind_ok : forall {A B} (o : outcome A) (f : A -> outcome B) b,
  bind o f = Ok b -> exists a, o = Ok a /\ f a = Ok b.
Proof.
  intros A B [a| | |] f b H; cbn in H; try discriminate. eauto.
Qed.

Lemma loopM_inv : forall {St} (P : nat -> St -> Prop)
    (body : nat -> St -> outcome St) count a s s',
  (forall i s s', a <= i < a + count -> P i s -> body i s = Ok s' -> P (S i) s') ->
  P a s -> loopM a count body s = Ok s' -> P (a + count) s'.
Proof.
  intros St P body count; induction count as [|c IH]; intros a s s' H Ha E;
    cbn [loopM] in E.
  - injection E as <-. rewrite Nat.add_0_r. exact Ha.
  - apply bind_ok in E. destruct E as (s1 & E1 & E).
    rewrite Nat.add_succ_r, <- Nat.add_succ_l. eapply IH; [|  |exact E].
    + intros; eapply H; eauto; lia.
    + eapply H; eauto; lia.
Qed.

(* A loop whose body succeeds on the states that satisfy an invariant. *)
Lemma loopM_total : forall {St} (P : nat -> St -> Prop)
    (body : nat -> St -> outcome St) count a s,
  (forall i s, a <= i < a + count -> P i s ->
     exists s', body i s = Ok s' /\ P (S i) s') ->
  P a s -> exists s', loopM a count body s = Ok s' /\ P (a + count) s'.
Proof.
  intros St P body count; induction count as [|c IH]; intros a s H Ha.
  - exists s. rewrite Nat.add_0_r. auto.
  - destruct (H a s) as (s1 & E1 & H1); [lia|assumption|].
    destruct (IH (S a) s1) as (s' & E & H'); [|assumption|].
    + intros; apply H; [lia|assumption].
    + exists s'. cbn [loopM]. rewrite E1. cbn [bind].
      rewrite Nat.add_succ_r, <- Nat.add_succ_l. auto.
Qed.

Lemma loop_downM_inv : forall {St} (P : nat -> St -> Prop)
    (body : nat -> St -> outcome St) count s s',
  (forall i s s', i < count -> P (S i) s -> body i s = Ok s' -> P i s') ->
  P count s -> loop_downM count body s = Ok s' -> P 0 s'.
Proof.
  intros St P body count; induction count as [|c IH]; intros s s' H Hc E;
    cbn [loop_downM] in E.
  - injection E as <-. exact Hc.
  - apply bind_ok in E. destruct E as (s1 & E1 & E).
    eapply IH; [| |exact E].
    + intros; eapply H; eauto.
    + eapply H; eauto.
Qed.

Lemma loop_downM_total : forall {St} (P : nat -> St -> Prop)
    (body : nat -> St -> outcome St) count s,
  (forall i s, i < count -> P (S i) s -> exists s', body i s = Ok s' /\ P i s') ->
  P count s -> exists s', loop_downM count body s = Ok s' /\ P 0 s'.
Proof.
  intros St P body count; induction count as [|c IH]; intros s H Hc.
  - exists s. auto.
  - destruct (H c s) as (s1 & E1 & H1); [lia|assumption|].
    destruct (IH s1) as (s' & E & H'); [|assumption|].
    + intros; apply H; [lia|assumption].
    + exists s'. cbn [loop_downM]. rewrite E1. auto.
Qed.

Lemma loop_sub : forall (f : nat -> Qc) count a s,
  loop a count (fun j s => (s - f j)%Qc) s
  = (s - sum count (fun j => f (a + j)%nat))%Qc.
Proof.
  intros f count; induction count as [|c IH]; intros a s.
  - cbn. ring.
  - rewrite sum_first. cbn [loop]. rewrite IH.
    rewrite Nat.add_0_r.
    rewrite (sum_ext c (fun i => f (a + S i)) (fun j => f (S a + j)))
      by (intros; f_equal; lia). ring.
Qed.

Lemma divide_ok : forall a b c,
  divide a b = Ok c -> b <> 0%Qc /\ (c * b)%Qc = a.
Proof.
  intros a b c H. unfold divide in H.
  destruct (Qc_eq_dec b 0) as [|N]; [discriminate|].
  injection H as <-. split; [assumption|]. field. assumption.
Qed.

Lemma divide_total : forall a b, b <> 0%Qc -> divide a b = Ok (a / b)%Qc.
Proof.
  intros a b H. unfold divide. destruct (Qc_eq_dec b 0); [contradiction|reflexivity].
Qed.

Lemma vset_same : forall v i y, vset v i y i = y.
Proof. intros; unfold vset; rewrite Nat.eqb_refl; reflexivity. Qed.
Lemma vset_other : forall v i y k, k <> i -> vset v i y k = v k.
Proof.
  intros; unfold vset. destruct (Nat.eqb_spec k i); [contradiction|reflexivity].
Qed.
Lemma mset_same : forall M i j y, mset M i j y i j = y.
Proof. intros; unfold mset; rewrite !Nat.eqb_refl; reflexivity. Qed.
Lemma mset_other : forall M i j y k l, k <> i \/ l <> j -> mset M i j y k l = M k l.
Proof.
  intros M i j y k l H; unfold mset.
  destruct (Nat.eqb_spec k i); destruct (Nat.eqb_spec l j); cbn; try reflexivity.
  lia.
Qed.

(* --------------------------------------------------------- substitutions *)

Lemma apply_upper : forall n U x i, i < n ->
  apply n (upper U) x i
  = (U i i * x i + sum (n - S i) (fun j => U i (S i + j)%nat * x (S i + j)%nat))%Qc.
Proof.
  intros n U x i H. unfold apply.
  replace n with (S i + (n - S i)) at 1 by lia.
  rewrite sum_split. cbn [sum]. rewrite sum_0.
  - unfold upper at 1. rewrite Nat.leb_refl.
    rewrite (sum_ext (n - S i)
               (fun j => (upper U i (S i + j)%nat * x (S i + j)%nat)%Qc)
               (fun j => (U i (S i + j)%nat * x (S i + j)%nat)%Qc)).
    + ring.
    + intros j Hj. unfold upper.
      destruct (Nat.leb_spec i (S i + j)); [reflexivity|lia].
  - intros j Hj. unfold upper. destruct (Nat.leb_spec i j); [lia|]. ring.
Qed.

Lemma apply_lower : forall n L x i, i < n ->
  apply n (lower L) x i = (sum i (fun j => L i j * x j) + L i i * x i)%Qc.
Proof.
  intros n L x i H. unfold apply.
  replace n with (S i + (n - S i)) at 1 by lia.
  rewrite sum_split. rewrite (sum_0 (n - S i)).
  - cbn [sum]. unfold lower at 2. rewrite Nat.leb_refl.
    rewrite (sum_ext i (fun j => (lower L i j * x j)%Qc)
                       (fun j => (L i j * x j)%Qc)).
    + ring.
    + intros j Hj. unfold lower. destruct (Nat.leb_spec j i); [reflexivity|lia].
  - intros j Hj. unfold lower. destruct (Nat.leb_spec (S i + j) i); [lia|]. ring.
Qed.

Lemma apply_ext : forall n A x y i,
  (forall j, j < n -> x j = y j) -> apply n A x i = apply n A y i.
Proof.
  intros. unfold apply. apply sum_ext. intros. rewrite H by assumption. reflexivity.
Qed.

(* The state of the loop of BackSubstitution once the elements at [i] and above
   are computed. *)
Definition back_inv (n : nat) (U : matrix) (b : vector) (i : nat) (x : vector) :=
  forall k, i <= k < n -> U k k <> 0%Qc /\ apply n (upper U) x k = b k.

Lemma back_inv_step : forall n U b i x xi,
  i < n -> back_inv n U b (S i) x -> U i i <> 0%Qc ->
  (xi * U i i)%Qc
    = (b i - sum (n - S i) (fun j => U i (S i + j)%nat * x (S i + j)%nat))%Qc ->
  back_inv n U b i (vset x i xi).
Proof.
  intros n U b i x xi Hi H HU E k Hk.
  assert (O : forall m, m < n - S k ->
            (vset x i xi) (S k + m)%nat = x (S k + m)%nat).
  { intros m Hm. apply vset_other. lia. }
  destruct (Nat.eq_dec k i) as [->|N].
  - split; [assumption|].
    rewrite apply_upper by assumption. rewrite vset_same.
    rewrite (sum_ext _ _ (fun j => (U i (S i + j)%nat * x (S i + j)%nat)%Qc))
      by (intros; rewrite O by assumption; reflexivity).
    rewrite Qcmult_comm, E. ring.
  - destruct (H k) as [H1 H2]; [lia|]. split; [assumption|].
    rewrite <- H2, !apply_upper by lia. rewrite (vset_other x i xi k) by assumption.
    f_equal. apply sum_ext. intros; rewrite O by assumption; reflexivity.
Qed.

Lemma back_correct : forall n U b junk x,
  BackSubstitution n U b junk = Ok x -> 0 < n /\ back_inv n U b 0 x.
Proof.
  intros [|m] U b junk x H; [discriminate|].
  unfold BackSubstitution in H. split; [lia|].
  apply bind_ok in H. destruct H as (xm & E & H).
  apply divide_ok in E. destruct E as [Hm E].
  eapply loop_downM_inv with (P := back_inv (S m) U b); [| |exact H].
  - intros i s s' Hi I B. apply bind_ok in B. destruct B as (xi & B & B').
    injection B' as <-. apply divide_ok in B. destruct B as [Hii B].
    apply back_inv_step; try assumption; [lia|].
    rewrite B. rewrite (loop_sub (fun j => (U i j * s j)%Qc)).
    replace (S m - S i) with (m - i) by lia. reflexivity.
  - apply back_inv_step; try assumption; [lia| |].
    + intros k Hk; lia.
    + rewrite E. replace (S m - S m) with 0 by lia. cbn. ring.
Qed.

Lemma back_total : forall n U b junk,
  0 < n -> (forall i, i < n -> U i i <> 0%Qc) ->
  exists x, BackSubstitution n U b junk = Ok x.
Proof.
  intros [|m] U b junk Hn H; [lia|]. unfold BackSubstitution.
  rewrite divide_total by (apply H; lia). cbn [bind].
  match goal with
  | |- exists x, loop_downM ?c ?body ?s = _ =>
    destruct (loop_downM_total (fun _ (_ : vector) => True) body c s) as (x & E & _);
      [|exact I|exists x; exact E]
  end.
  intros i s Hi _. rewrite divide_total by (apply H; lia). cbn [bind]. eauto.
Qed.

Definition forward_inv (n : nat) (L : matrix) (b : vector) (i : nat) (x : vector) :=
  forall k, k < i -> k < n -> L k k <> 0%Qc /\ apply n (lower L) x k = b k.

Lemma forward_inv_step : forall n L b i x xi,
  i < n -> forward_inv n L b i x -> L i i <> 0%Qc ->
  (xi * L i i)%Qc = (b i - sum i (fun j => L i j * x j))%Qc ->
  forward_inv n L b (S i) (vset x i xi).
Proof.
  intros n L b i x xi Hi H HU E k Hk Hn.
  assert (O : forall m, m < k -> (vset x i xi) m = x m).
  { intros m Hm. apply vset_other. lia. }
  destruct (Nat.eq_dec k i) as [->|N].
  - split; [assumption|].
    rewrite apply_lower by assumption. rewrite vset_same.
    rewrite (sum_ext _ _ (fun j => (L i j * x j)%Qc))
      by (intros; rewrite O by assumption; reflexivity).
    rewrite (Qcmult_comm (L i i)), E. ring.
  - destruct (H k) as [H1 H2]; [lia|lia|]. split; [assumption|].
    rewrite <- H2, !apply_lower by lia. rewrite (vset_other x i xi k) by assumption.
    f_equal. apply sum_ext. intros; rewrite O by assumption; reflexivity.
Qed.

Lemma forward_correct : forall n L b junk x,
  ForwardSubstitution n L b junk = Ok x -> 0 < n /\ forward_inv n L b n x.
Proof.
  intros [|m] L b junk x H; [discriminate|].
  unfold ForwardSubstitution in H. split; [lia|].
  apply bind_ok in H. destruct H as (x0 & E & H).
  apply divide_ok in E. destruct E as [Hm E].
  change (S m) with (1 + m) at 2.
  eapply loopM_inv with (P := forward_inv (S m) L b); [| |exact H].
  - intros i s s' Hi I B. apply bind_ok in B. destruct B as (xi & B & B').
    injection B' as <-. apply divide_ok in B. destruct B as [Hii B].
    apply forward_inv_step; try assumption; [lia|].
    rewrite B. rewrite (loop_sub (fun j => (L i j * s j)%Qc)). reflexivity.
  - apply forward_inv_step; try assumption; [lia| |].
    + intros k Hk; lia.
    + rewrite E. cbn. ring.
Qed.

Lemma forward_total : forall n L b junk,
  0 < n -> (forall i, i < n -> L i i <> 0%Qc) ->
  exists x, ForwardSubstitution n L b junk = Ok x.
Proof.
  intros [|m] L b junk Hn H; [lia|]. unfold ForwardSubstitution.
  rewrite divide_total by (apply H; lia). cbn [bind].
  match goal with
  | |- exists x, loopM ?a ?c ?body ?s = _ =>
    destruct (loopM_total (fun _ (_ : vector) => True) body c a s) as (x & E & _);
      [|exact I|exists x; exact E]
  end.
  intros i s Hi _. rewrite divide_total by (apply H; lia). cbn [bind]. eauto.
Qed.

(* ------------------------------------------------------------------ pivot *)

Lemma pivot_some : forall n k A, k < n ->
  exists r, fst (pivot n k A) = Some r /\ k <= r < n /\
            (forall i, k <= i < n -> (Qcabs (A i k) <= Qcabs (A r k))%Qc).
Proof.
  intros n k A Hk. unfold pivot.
  set (body := fun (i : nat) '(r, max) => _).
  pose (P := fun (m : nat) (s : option nat * Qc) =>
    (0 <= snd s)%Qc /\
    match fst s with
    | None => m = k /\ snd s = 0%Qc
    | Some r => k <= r < m /\ snd s = Qcabs (A r k) /\
                forall i, k <= i < m -> (Qcabs (A i k) <= Qcabs (A r k))%Qc
    end).
  assert (H : P (k + (n - k)) (loop k (n - k) body (None, 0%Qc))).
  { apply loop_inv.
    - intros i [r max] Hi [H0 H]. cbn [fst snd] in *. unfold body, abs_geb.
      destruct (Qclt_le_dec (Qcabs (A i k)) max) as [Hlt|Hle].
      + split; cbn [fst snd]; [assumption|]. destruct r as [r|].
        * destruct H as (H1 & H2 & H3). split; [lia|]. split; [assumption|].
          intros j Hj. destruct (Nat.eq_dec j i) as [->|].
          { rewrite <- H2. apply Qclt_le_weak. assumption. }
          { apply H3. lia. }
        * destruct H as [_ ->]. exfalso.
          apply (Qclt_not_le _ _ Hlt). apply Qcabs_nonneg.
      + split; cbn [fst snd]; [apply Qcabs_nonneg|].
        split; [lia|]. split; [reflexivity|].
        intros j Hj. destruct (Nat.eq_dec j i) as [->|]; [apply Qcle_refl|].
        apply Qcle_trans with max; [|assumption].
        destruct r as [r|].
        * destruct H as (H1 & -> & H3). apply H3. lia.
        * lia.
    - split; cbn; [apply Qcle_refl|auto]. }
  destruct (loop k (n - k) body (None, 0%Qc)) as [r max].
  destruct H as [_ H]. cbn [fst snd] in *. destruct r as [r|]; [|lia].
  replace (k + (n - k)) with n in H by lia. exists r. intuition.
Qed.

(* --------------------------------------------------------------- LU loops *)

Lemma U_row_spec : forall n k A L U i j,
  U_row n k A L U i j =
  if (i =? k) && ((k <=? j) && (j <? n))
  then (A k j - sum k (fun l => L k l * U l j))%Qc
  else U i j.
Proof.
  intros n k A L U i j. unfold U_row.
  set (body := fun _ _ => _).
  destruct (le_lt_dec n k) as [Hn|Hn].
  { replace (n - k) with 0 by lia. cbn [loop].
    destruct (Nat.eqb_spec i k); destruct (Nat.leb_spec k j);
      destruct (Nat.ltb_spec j n); cbn; reflexivity || lia. }
  pose (P := fun (m : nat) (V : matrix) => forall i j,
    V i j = if (i =? k) && ((k <=? j) && (j <? m))
            then (A k j - sum k (fun l => L k l * U l j))%Qc
            else U i j).
  assert (H : P (k + (n - k)) (loop k (n - k) body U)).
  { apply loop_inv.
    - intros m V Hm HV i0 j0. unfold body.
      rewrite (loop_sub (fun i => (L k i * V i m)%Qc)). cbn [Nat.add].
      rewrite (sum_ext k (fun i => (L k i * V i m)%Qc)
                         (fun l => (L k l * U l m)%Qc)).
      2: { intros l Hl. rewrite HV. destruct (Nat.eqb_spec l k); [lia|].
           reflexivity. }
      unfold mset. destruct (Nat.eqb_spec i0 k) as [->|]; cbn [andb].
      + destruct (Nat.eqb_spec j0 m) as [->|].
        * destruct (Nat.leb_spec k m); [|lia].
          destruct (Nat.ltb_spec m (S m)); [|lia]. cbn [andb].
          reflexivity.
        * rewrite HV, Nat.eqb_refl. cbn [andb].
          destruct (Nat.ltb_spec j0 m); destruct (Nat.ltb_spec j0 (S m));
            try reflexivity; lia.
      + rewrite HV. destruct (Nat.eqb_spec i0 k); [contradiction|reflexivity].
    - intros i0 j0. destruct (Nat.leb_spec k j0); destruct (Nat.ltb_spec j0 k);
        cbn [andb]; rewrite ?andb_false_r; try reflexivity. lia. }
  replace (k + (n - k)) with n in H by lia. apply H.
Qed.

Lemma L_column_spec : forall n k A L U L',
  L_column n k A L U = Ok L' ->
  (S k < n -> U k k <> 0%Qc) /\ L' k k = 1%Qc /\
  (forall i, k < i < n ->
     (L' i k * U k k)%Qc = (A i k - sum k (fun l => L i l * U l k))%Qc) /\
  (forall i j, j <> k \/ (i < k \/ n <= i) -> i <> k \/ j <> k -> L' i j = L i j).
Proof.
  intros n k A L U L' H. unfold L_column in H.
  apply bind_ok in H. destruct H as (L1 & H & E). injection E as <-.
  pose (P := fun (m : nat) (V : matrix) =>
    (S k < m -> U k k <> 0%Qc) /\
    (forall i, k < i < m ->
       (V i k * U k k)%Qc = (A i k - sum k (fun l => L i l * U l k))%Qc) /\
    (forall i j, j <> k \/ (i <= k \/ m <= i) -> V i j = L i j)).
  assert (HP : P (S k + (n - S k)) L1).
  { eapply loopM_inv with (P := P); [| |exact H].
    - intros i V V' Hi (H1 & H2 & H3) B. apply bind_ok in B.
      destruct B as (y & B & B'). injection B' as <-.
      apply divide_ok in B. destruct B as [B1 B2].
      rewrite (loop_sub (fun j => (V i j * U j k)%Qc)) in B2. cbn [Nat.add] in B2.
      rewrite (sum_ext k (fun j => (V i j * U j k)%Qc)
                         (fun l => (L i l * U l k)%Qc)) in B2.
      2: { intros l Hl. rewrite H3 by lia. reflexivity. }
      split; [intros; assumption|]. split.
      + intros i' Hi'. destruct (Nat.eq_dec i' i) as [->|].
        * rewrite mset_same. exact B2.
        * rewrite mset_other by lia. apply H2. lia.
      + intros i' j' Hij. rewrite mset_other by lia. apply H3. lia.
    - split; [lia|]. split; [intros; lia|]. reflexivity. }
  destruct HP as (H1 & H2 & H3). split; [intros; apply H1; lia|].
  split; [apply mset_same|]. split.
  - intros i Hi. rewrite mset_other by lia. apply H2. lia.
  - intros i j H4 H5. rewrite mset_other by lia. apply H3. lia.
Qed.

Lemma L_column_total : forall n k A L U,
  (S k < n -> U k k <> 0%Qc) -> exists L', L_column n k A L U = Ok L'.
Proof.
  intros n k A L U H. unfold L_column.
  match goal with
  | |- exists x, bind ?l _ = _ => assert (G : exists x, l = Ok x); [|set (o := l) in *]
  end.
  - match goal with
    | |- exists x, loopM ?a ?c ?body ?s = _ =>
      destruct (loopM_total (fun _ (_ : matrix) => True) body c a s) as (x & E & _);
        [|exact I|exists x; exact E]
    end.
    intros i V Hi _. rewrite divide_total by (apply H; lia). cbn [bind]. eauto.
  - destruct G as (x & ->). cbn [bind]. eauto.
Qed.

(* The transposition of two indices. *)
Definition sw (k r i : nat) : nat := if i =? k then r else if i =? r then k else i.

Lemma sw_lt : forall k r n i, k < n -> r < n -> i < n -> sw k r i < n.
Proof.
  intros; unfold sw. destruct (i =? k); [assumption|]. destruct (i =? r); assumption.
Qed.

Lemma sw_below : forall k r i, i < k -> k <= r -> sw k r i = i.
Proof.
  intros; unfold sw. destruct (Nat.eqb_spec i k); [lia|].
  destruct (Nat.eqb_spec i r); [lia|reflexivity].
Qed.

Lemma sw_above : forall k r i, k <= i -> k <= r -> k <= sw k r i.
Proof.
  intros; unfold sw. destruct (Nat.eqb_spec i k); [lia|].
  destruct (Nat.eqb_spec i r); lia.
Qed.

Lemma sw_sw : forall k r i, sw k r (sw k r i) = i.
Proof.
  intros; unfold sw. destruct (Nat.eqb_spec i k) as [->|].
  - destruct (Nat.eqb_spec r k) as [->|]; [reflexivity|].
    rewrite Nat.eqb_refl. reflexivity.
  - destruct (Nat.eqb_spec i r) as [->|].
    + rewrite Nat.eqb_refl. reflexivity.
    + destruct (Nat.eqb_spec i k); [contradiction|].
      destruct (Nat.eqb_spec i r); [contradiction|reflexivity].
Qed.

Lemma vswap_sw : forall v k r i, vswap v k r i = v (sw k r i).
Proof.
  intros; unfold vswap, sw. destruct (i =? k); [reflexivity|].
  destruct (i =? r); reflexivity.
Qed.

Lemma swap_rows_sw : forall c M k r i j, j < c -> swap_rows c M k r i j = M (sw k r i) j.
Proof.
  intros; unfold swap_rows, sw. destruct (Nat.ltb_spec j c); [|lia].
  destruct (i =? k); [reflexivity|]. destruct (i =? r); reflexivity.
Qed.

(* ---------------------------------------------------------- the LU loop *)

Lemma permuted_solves : forall n A b A' b' x,
  permuted n A b A' b' -> (solves n A b x <-> solves n A' b' x).
Proof.
  intros n A b A' b' x (p & q & P & HA & Hb). split; intros H i Hi.
  - rewrite Hb by assumption. rewrite <- H by (apply P; assumption).
    apply sum_ext. intros; rewrite HA by assumption. reflexivity.
  - destruct (P i Hi) as (P1 & P2 & P3 & P4).
    specialize (H (q i) P2). rewrite Hb, P3 in H by assumption. rewrite <- H.
    apply sum_ext. intros. rewrite HA, P3 by assumption. reflexivity.
Qed.

Record lu_inv (n : nat) (A0 : matrix) (b0 : vector) (k : nat) (s : lu) : Prop := {
  inv_system : permuted n A0 b0 (lu_A s) (lu_b s);
  inv_U : forall i j, i < k -> i <= j < n ->
    lu_A s i j = (sum i (fun l => lu_L s i l * lu_U s l j) + lu_U s i j)%Qc;
  inv_diagonal : forall i, i < k -> lu_L s i i = 1%Qc;
  inv_L : forall l i, l < k -> l < i < n ->
    lu_A s i l = (sum l (fun m => lu_L s i m * lu_U s m l)
                  + lu_L s i l * lu_U s l l)%Qc;
  inv_pivots : forall l, l < k -> S l < n -> lu_U s l l <> 0%Qc }.

Lemma lu_step : forall n A0 b0 k s r A1 L1 b1 L',
  k < n -> k <= r < n -> lu_inv n A0 b0 k s ->
  (forall i j, j < n -> A1 i j = lu_A s (sw k r i) j) ->
  (forall i j, j < k -> L1 i j = lu_L s (sw k r i) j) ->
  (forall i, b1 i = lu_b s (sw k r i)) ->
  L_column n k A1 L1 (U_row n k A1 L1 (lu_U s)) = Ok L' ->
  lu_inv n A0 b0 (S k) (mkLU A1 L' (U_row n k A1 L1 (lu_U s)) b1).
Proof.
  intros n A0 b0 k s r A1 L1 b1 L' Hk Hr I HA HL Hb E.
  apply L_column_spec in E. destruct E as (E1 & E2 & E3 & E4).
  destruct I as [I1 I2 I3 I4 I5].
  set (U1 := U_row n k A1 L1 (lu_U s)) in *.
  assert (HUk : forall j, k <= j < n ->
            U1 k j = (A1 k j - sum k (fun l => L1 k l * lu_U s l j))%Qc).
  { intros j Hj. unfold U1. rewrite U_row_spec, Nat.eqb_refl.
    destruct (Nat.leb_spec k j); [|lia]. destruct (Nat.ltb_spec j n); [|lia].
    reflexivity. }
  assert (HU : forall i j, i <> k -> U1 i j = lu_U s i j).
  { intros i j Hi. unfold U1. rewrite U_row_spec.
    destruct (Nat.eqb_spec i k); [contradiction|]. reflexivity. }
  assert (HL' : forall i j, j < k -> L' i j = lu_L s (sw k r i) j).
  { intros i j Hj. rewrite E4 by lia. apply HL. assumption. }
  constructor; cbn [lu_A lu_L lu_U lu_b].
  - destruct I1 as (p & q & P & PA & Pb).
    exists (fun i => p (sw k r i)), (fun i => sw k r (q i)).
    split; [|split].
    + intros i Hi. destruct (P i Hi) as (P1 & P2 & P3 & P4).
      destruct (P (sw k r i)) as (Q1 & Q2 & Q3 & Q4); [apply sw_lt; lia|].
      split; [assumption|]. split; [apply sw_lt; lia|].
      rewrite sw_sw, Q4, sw_sw. auto.
    + intros i j Hi Hj. rewrite HA by assumption. apply PA; [|assumption].
      apply sw_lt; lia.
    + intros i Hi. rewrite Hb. apply Pb. apply sw_lt; lia.
  - intros i j Hi Hj. destruct (Nat.eq_dec i k) as [->|N].
    + rewrite HUk by lia.
      rewrite (sum_ext k (fun l => (L' k l * U1 l j)%Qc)
                         (fun l => (L1 k l * lu_U s l j)%Qc)).
      * ring.
      * intros l Hl. rewrite HL', HU, HL by lia. reflexivity.
    + rewrite HA by lia. rewrite sw_below by lia. rewrite I2 by lia.
      rewrite HU by lia. f_equal. apply sum_ext. intros l Hl.
      rewrite HL', HU, sw_below by lia. reflexivity.
  - intros i Hi. destruct (Nat.eq_dec i k) as [->|N]; [exact E2|].
    rewrite HL' by lia. rewrite sw_below by lia. apply I3. lia.
  - intros l i Hl Hi. destruct (Nat.eq_dec l k) as [->|N].
    + rewrite E3 by lia.
      rewrite (sum_ext k (fun m => (L' i m * U1 m k)%Qc)
                         (fun l => (L1 i l * U1 l k)%Qc)).
      * ring.
      * intros m Hm. rewrite HL', HL by lia. reflexivity.
    + rewrite HA by lia.
      assert (Hsw : l < sw k r i < n).
      { split; [|apply sw_lt; lia].
        destruct (le_lt_dec k i) as [Hi'|Hi'].
        - pose proof (sw_above k r i Hi'). lia.
        - rewrite sw_below by lia. lia. }
      rewrite I4 by lia. rewrite HL', HU by lia. f_equal.
      apply sum_ext. intros m Hm. rewrite HL', HU by lia. reflexivity.
  - intros l Hl Hn. destruct (Nat.eq_dec l k) as [->|N].
    + apply E1. assumption.
    + rewrite HU by lia. apply I5; lia.
Qed.

Lemma lu_init : forall n A b L U, lu_inv n A b 0 (mkLU A L U b).
Proof.
  intros. constructor; cbn; intros; try lia.
  exists (fun i => i), (fun i => i). split; [|split]; auto. intros i Hi; auto.
Qed.

Lemma solve_step_inv : forall n A0 b0 k s s',
  k < n -> lu_inv n A0 b0 k s -> solve_step n k s = Ok s' -> lu_inv n A0 b0 (S k) s'.
Proof.
  intros n A0 b0 k s s' Hk I E. unfold solve_step in E.
  destruct (pivot_some n k (lu_A s) Hk) as (r & Er & Hr & _). rewrite Er in E.
  apply bind_ok in E. destruct E as (L' & E & E'). injection E' as <-.
  eapply lu_step with (r := r) (s := s); eauto.
  - intros; apply swap_rows_sw; assumption.
  - intros; apply swap_rows_sw; assumption.
  - intros; apply vswap_sw.
Qed.

Lemma r3_solve_step_inv : forall A0 b0 k s s',
  k < 3 -> lu_inv 3 A0 b0 k s -> r3_solve_step k s = Ok s' -> lu_inv 3 A0 b0 (S k) s'.
Proof.
  intros A0 b0 k s s' Hk I E. unfold r3_solve_step in E.
  destruct (pivot_some 3 k (lu_A s) Hk) as (r & Er & Hr & _). rewrite Er in E.
  destruct (Qc_eq_dec (swap_rows 3 (lu_A s) k r k k) 0); [discriminate|].
  apply bind_ok in E. destruct E as (L' & E & E'). injection E' as <-.
  eapply lu_step with (r := r) (s := s); eauto.
  - intros; apply swap_rows_sw; assumption.
  - intros; apply swap_rows_sw; lia.
  - intros; apply vswap_sw.
Qed.

(* A = L U *)
Lemma lu_product : forall n A0 b0 s i j,
  lu_inv n A0 b0 n s -> i < n -> j < n ->
  lu_A s i j = sum n (fun l => (lower (lu_L s) i l * upper (lu_U s) l j)%Qc).
Proof.
  intros n A0 b0 s i j [I1 I2 I3 I4 I5] Hi Hj.
  destruct (le_lt_dec i j) as [H|H].
  - rewrite I2 by lia. replace n with (S i + (n - S i)) by lia.
    rewrite sum_split, (sum_0 (n - S i)).
    + cbn [sum]. unfold lower at 2, upper at 2. rewrite Nat.leb_refl.
      destruct (Nat.leb_spec i j); [|lia]. rewrite I3 by assumption.
      rewrite (sum_ext i (fun l => (lower (lu_L s) i l * upper (lu_U s) l j)%Qc)
                         (fun l => (lu_L s i l * lu_U s l j)%Qc)).
      * ring.
      * intros l Hl. unfold lower, upper. destruct (Nat.leb_spec l i); [|lia].
        destruct (Nat.leb_spec l j); [reflexivity|lia].
    + intros l Hl. unfold lower. destruct (Nat.leb_spec (S i + l) i); [lia|]. ring.
  - rewrite I4 by lia. replace n with (S j + (n - S j)) by lia.
    rewrite sum_split, (sum_0 (n - S j)).
    + cbn [sum]. unfold lower at 2, upper at 2. rewrite Nat.leb_refl.
      destruct (Nat.leb_spec j i); [|lia].
      rewrite (sum_ext j (fun l => (lower (lu_L s) i l * upper (lu_U s) l j)%Qc)
                         (fun l => (lu_L s i l * lu_U s l j)%Qc)).
      * ring.
      * intros l Hl. unfold lower, upper. destruct (Nat.leb_spec l i); [|lia].
        destruct (Nat.leb_spec l j); [reflexivity|lia].
    + intros l Hl. unfold upper. destruct (Nat.leb_spec (S j + l) j); [lia|]. ring.
Qed.

Lemma lu_apply : forall n A0 b0 s x i,
  lu_inv n A0 b0 n s -> i < n ->
  apply n (lu_A s) x i
  = apply n (lower (lu_L s)) (apply n (upper (lu_U s)) x) i.
Proof.
  intros n A0 b0 s x i I Hi. unfold apply.
  rewrite (sum_ext n (fun j => (lu_A s i j * x j)%Qc)
             (fun j => sum n (fun l => lower (lu_L s) i l * upper (lu_U s) l j * x j)%Qc)).
  2: { intros j Hj. rewrite (lu_product n A0 b0 s i j I Hi Hj).
       rewrite <- sum_scale_r. reflexivity. }
  rewrite sum_exchange. apply sum_ext. intros l Hl.
  rewrite <- sum_scale. apply sum_ext. intros. ring.
Qed.

(* The solution of an upper triangular system is unique. *)
Lemma upper_unique : forall n U b x y,
  (forall i, i < n -> U i i <> 0%Qc) ->
  solves n (upper U) b x -> solves n (upper U) b y -> forall i, i < n -> x i = y i.
Proof.
  intros n U b x y HU Hx Hy.
  assert (G : forall c i, c <= n -> n - c <= i < n -> x i = y i).
  { induction c as [|c IH]; intros i Hc Hi; [lia|].
    destruct (Nat.eq_dec i (n - S c)) as [->|]; [|apply IH; lia].
    set (k := n - S c) in *.
    pose proof (Hx k ltac:(lia)) as Ex. pose proof (Hy k ltac:(lia)) as Ey.
    rewrite apply_upper in Ex, Ey by lia.
    rewrite (sum_ext _ _ (fun j => (U k (S k + j)%nat * y (S k + j)%nat)%Qc)) in Ex.
    2: { intros j Hj. rewrite IH by lia. reflexivity. }
    assert (E : (U k k * x k)%Qc = (U k k * y k)%Qc).
    { rewrite <- Ey in Ex.
      match type of Ex with (?p + ?q)%Qc = (?r + _)%Qc =>
        replace p with (p + q - q)%Qc by ring; rewrite Ex; ring end. }
    assert (HUk : U k k <> 0%Qc) by (apply HU; lia).
    transitivity ((U k k * x k) / U k k)%Qc; [field; assumption|].
    rewrite E. field. assumption. }
  intros i Hi. apply (G n); lia.
Qed.

Lemma lower_unique : forall n L b x y,
  (forall i, i < n -> L i i <> 0%Qc) ->
  solves n (lower L) b x -> solves n (lower L) b y -> forall i, i < n -> x i = y i.
Proof.
  intros n L b x y HL Hx Hy i.
  induction i as [k IH] using lt_wf_ind. intros Hk.
  pose proof (Hx k Hk) as Ex. pose proof (Hy k Hk) as Ey.
  rewrite apply_lower in Ex, Ey by lia.
  rewrite (sum_ext _ _ (fun j => (L k j * y j)%Qc)) in Ex.
  2: { intros j Hj. rewrite IH by lia. reflexivity. }
  assert (E : (L k k * x k)%Qc = (L k k * y k)%Qc).
  { rewrite <- Ey in Ex.
    match type of Ex with (?q + ?p)%Qc = _ =>
      replace p with (q + p - q)%Qc by ring; rewrite Ex; ring end. }
  assert (HLk : L k k <> 0%Qc) by (apply HL; lia).
  transitivity ((L k k * x k) / L k k)%Qc; [field; assumption|].
  rewrite E. field. assumption.
Qed.

(* When the factorization succeeded, with the last pivot too, the solutions of
   the system are those of the triangular systems. *)
Lemma lu_solves : forall n A0 b0 s x,
  lu_inv n A0 b0 n s ->
  (solves n A0 b0 x <->
   solves n (lower (lu_L s)) (lu_b s) (apply n (upper (lu_U s)) x)).
Proof.
  intros n A0 b0 s x I. rewrite (permuted_solves _ _ _ _ _ x (inv_system _ _ _ _ _ I)).
  split; intros H i Hi; specialize (H i Hi).
  - rewrite <- H. symmetry. eapply lu_apply; eauto.
  - rewrite <- H. eapply lu_apply; eauto.
Qed.

Lemma solve_loop_inv : forall n A b L U s,
  loopM 0 n (solve_step n) (mkLU A L U b) = Ok s -> lu_inv n A b n s.
Proof.
  intros n A b L U s E. change n with (0 + n) at 2.
  eapply loopM_inv with (P := lu_inv n A b); [| |exact E].
  - intros. eapply solve_step_inv; eauto. lia.
  - apply lu_init.
Qed.

Lemma r3_solve_loop_inv : forall A b L U s,
  loopM 0 3 r3_solve_step (mkLU A L U b) = Ok s -> lu_inv 3 A b 3 s.
Proof.
  intros A b L U s E. change 3 with (0 + 3) at 2.
  eapply loopM_inv with (P := lu_inv 3 A b); [| |exact E].
  - intros. eapply r3_solve_step_inv; eauto. lia.
  - apply lu_init.
Qed.

Lemma lu_finish : forall n A b s y x,
  lu_inv n A b n s ->
  (forall k, k < n -> apply n (lower (lu_L s)) y k = lu_b s k) ->
  back_inv n (lu_U s) y 0 x ->
  solves n A b x /\ (forall z, solves n A b z -> forall i, i < n -> z i = x i).
Proof.
  intros n A b s y x I Hy Hx.
  assert (HL : forall i, i < n -> lu_L s i i <> 0%Qc).
  { intros i Hi. rewrite (inv_diagonal _ _ _ _ _ I) by assumption. discriminate. }
  split.
  - apply (lu_solves n A b s x I). intros i Hi. rewrite <- Hy by assumption.
    apply apply_ext. intros j Hj. apply Hx. lia.
  - intros z Hz. apply (lu_solves n A b s z I) in Hz.
    apply (upper_unique n (lu_U s) y).
    + intros i Hi. apply Hx. lia.
    + intros i Hi.
      apply (lower_unique n (lu_L s) (lu_b s) (apply n (upper (lu_U s)) z) y);
        assumption.
    + intros i Hi. apply Hx. lia.
Qed.

Lemma Solve_sound : forall n A b JL JU Jy Jx x,
  Solve n A b JL JU Jy Jx = Ok x ->
  solves n A b x /\ (forall z, solves n A b z -> forall i, i < n -> z i = x i).
Proof.
  intros n A b JL JU Jy Jx x E. unfold Solve in E.
  apply bind_ok in E. destruct E as (s & Es & E).
  apply bind_ok in E. destruct E as (y & Ey & Ex).
  apply solve_loop_inv in Es. apply forward_correct in Ey. apply back_correct in Ex.
  eapply lu_finish; [exact Es| |apply Ex].
  intros k Hk. apply Ey; assumption.
Qed.

Lemma r3_forward_correct : forall L b J,
  (forall i, i < 3 -> L i i = 1%Qc) ->
  forall k, k < 3 -> apply 3 (lower L) (r3_forward L b J) k = b k.
Proof.
  intros L b J HL k Hk.
  assert (H : forward_inv 3 L b (1 + 2) (r3_forward L b J)).
  { unfold r3_forward. apply (loop_inv (forward_inv 3 L b)).
    - intros i s Hi I. apply forward_inv_step; try assumption; [lia| |].
      + rewrite HL by lia. discriminate.
      + rewrite (loop_sub (fun j => (L i j * s j)%Qc)), HL by lia.
        cbn [Nat.add]. ring.
    - apply forward_inv_step; [lia| | |].
      + intros j Hj; lia.
      + rewrite HL by lia. discriminate.
      + rewrite HL by lia. cbn. ring. }
  apply H; lia.
Qed.

Lemma R3x3_Solve_sound : forall A b JL JU Jy Jx x,
  R3x3_Solve A b JL JU Jy Jx = Ok x ->
  solves 3 A b x /\ (forall z, solves 3 A b z -> forall i, i < 3 -> z i = x i).
Proof.
  intros A b JL JU Jy Jx x E. unfold R3x3_Solve in E.
  apply bind_ok in E. destruct E as (s & Es & Ex).
  apply r3_solve_loop_inv in Es. apply back_correct in Ex.
  eapply lu_finish; [exact Es| |apply Ex].
  apply r3_forward_correct. apply (inv_diagonal _ _ _ _ _ Es).
Qed.
