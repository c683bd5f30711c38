(** Proofs about iteration and lookup in trajectories. *)
From Coq Require Import List Arith ZArith Bool Lia Sorted.
From Verif Require Import Trajectory_Model Trajectory_Proofs.
Import ListNotations.
Open Scope Z_scope.

(** ** The ordered list of points of a trajectory *)

(** [P] has the points of the segments, each time once, in increasing order. *)
Definition points_of (segs : list timeline) (P : timeline) : Prop :=
  StronglySorted earlier P /\ forall q, In q P <-> In q (concat segs).

(** The iterator [it] is at the point number [n] of [P], or at its end. *)
Definition denotes (segs : list timeline) (P : timeline) (it : iterator) (n : nat) : Prop :=
  match it with
  | End => n = length P
  | At i j => exists p, time_at segs i j = Some (fst p) /\ nth_error P n = Some p
  end.

Definition no_later (p q : point) : Prop := fst p <= fst q.

Lemma sorted_weaken s : sorted s -> StronglySorted no_later s.
Proof.
  induction s as [|p s IH]; intros H; [constructor|]. inversion H; subst. constructor; [apply IH; assumption|].
  eapply Forall_impl; [|exact H3]. unfold earlier, no_later. intros; lia.
Qed.

Lemma weak_app l r : StronglySorted no_later l -> StronglySorted no_later r -> (forall p q, In p l -> In q r -> fst p <= fst q) -> StronglySorted no_later (l ++ r).
Proof.
  induction l as [|p l IH]; intros Hl Hr H; [exact Hr|]. inversion Hl; subst. cbn [app]. constructor.
  - apply IH; [assumption|assumption|]. intros; apply H; [right|]; assumption.
  - apply Forall_app. split; [assumption|]. apply Forall_forall. intros q Hq. apply H; [left; reflexivity|assumption].
Qed.

Lemma weak_app_inv l r : StronglySorted no_later (l ++ r) -> StronglySorted no_later l /\ StronglySorted no_later r /\ (forall p q, In p l -> In q r -> fst p <= fst q).
Proof.
  induction l as [|p l IH]; intros H; [split; [constructor|]; split; [exact H|intros ? ? []]|]. inversion H as [|? ? H2 H3]; subst. destruct (IH H2) as (A & B & C).
  apply Forall_app in H3. destruct H3 as [H3 H4]. rewrite Forall_forall in H4. split; [constructor; assumption|]. split; [assumption|].
  intros u q [<-|Hu] Hq; [apply H4; assumption|apply C; assumption].
Qed.

Lemma concat_weak segs : chained segs -> StronglySorted no_later (concat segs).
Proof.
  induction segs as [|s r IH]; intros H; [constructor|]. cbn [concat]. apply weak_app; [apply sorted_weaken; exact (chained_head _ _ H)|apply IH; exact (chained_tail _ _ H)|].
  intros p q Hp Hq. destruct s as [|f s]; [contradiction|]. pose proof (sorted_last_ge (f :: s) f p (chained_head _ _ H) Hp).
  pose proof (chained_after _ _ _ H) as G. rewrite Forall_forall in G. specialize (G q Hq). lia.
Qed.

Lemma sorted_eq s p q : sorted s -> In p s -> In q s -> fst p = fst q -> p = q.
Proof.
  induction s as [|f s IH]; intros H Hp Hq E; [contradiction|]. destruct (sorted_inv _ _ H) as [H1 H2]. rewrite Forall_forall in H2. unfold earlier in H2.
  destruct Hp as [<-|Hp]; destruct Hq as [<-|Hq]; [reflexivity|specialize (H2 _ Hq); lia|specialize (H2 _ Hp); lia|apply IH; assumption].
Qed.

(** A time determines the point. *)
Lemma same_time segs p q : chained segs -> In p (concat segs) -> In q (concat segs) -> fst p = fst q -> p = q.
Proof.
  revert p q. induction segs as [|s r IH]; intros p q H Hp Hq E; [contradiction|]. pose proof (fun p q => IH p q (chained_tail _ _ H)) as G. clear IH.
  assert (Cross : forall p q, In p s -> In q (concat r) -> fst p = fst q -> p = q).
  { clear p q Hp Hq E. intros p q Hp Hq E. destruct s as [|f s]; [contradiction|]. destruct r as [|s2 r]; [contradiction|].
    destruct (chained_not_nil _ _ _ _ H) as (h & s2' & -> & Hl). pose proof (chained_head _ _ H) as Hs.
    pose proof (chained_after _ _ _ H) as A. rewrite Forall_forall in A. pose proof (A q Hq) as A1. rewrite Hl in A1.
    pose proof (sorted_last_ge (f :: s) f p Hs Hp) as A2. rewrite Hl in A2.
    assert (q = h) by (apply G; [assumption|left; reflexivity|lia]).
    subst q. rewrite <- Hl. apply (sorted_eq (f :: s)); [assumption|assumption|apply in_last; discriminate|]. rewrite Hl. assumption. }
  cbn [concat] in Hp, Hq. apply in_app_or in Hp, Hq. destruct Hp as [Hp|Hp]; destruct Hq as [Hq|Hq].
  - apply (sorted_eq s); auto. exact (chained_head _ _ H).
  - auto.
  - symmetry. apply Cross; auto.
  - auto.
Qed.

(** The list exists and is unique. *)
Fixpoint points (segs : list timeline) : timeline :=
  match segs with [] => [] | [] :: r => points r | s :: r => s ++ tl (points r) end.

Lemma points_hd segs p s r : segs = (p :: s) :: r -> exists P, points segs = p :: P.
Proof. intros ->. cbn. eauto. Qed.

Lemma points_ok segs : chained segs -> points_of segs (points segs).
Proof.
  induction segs as [|s r IH]; intros H; [split; [constructor|reflexivity]|]. destruct (IH (chained_tail _ _ H)) as [I1 I2].
  destruct s as [|p s]; [split; assumption|]. cbn [points].
  pose proof (chained_head _ _ H) as Hs. pose proof (chained_after _ _ _ H) as A. rewrite Forall_forall in A.
  destruct r as [|s2 r].
  - cbn [points tl]. rewrite app_nil_r. split; [exact Hs|]. cbn [concat]. rewrite app_nil_r. reflexivity.
  - destruct (chained_not_nil _ _ _ _ H) as (h & s2' & -> & Hl). destruct (points_hd _ h s2' r eq_refl) as (P & EP). rewrite EP in *. cbn [tl].
    split.
    + apply sorted_app. split; [assumption|]. apply StronglySorted_inv in I1. destruct I1 as [I1 H3]. split; [assumption|]. intros u v Hu Hv.
      pose proof (sorted_last_ge (p :: s) p u Hs Hu) as G. rewrite Hl in G. rewrite Forall_forall in H3. specialize (H3 v Hv). unfold earlier in H3. lia.
    + intros q. cbn [concat]. rewrite in_app_iff. rewrite (in_app_iff (p :: s)). split; (intros [Hq|Hq]; [left; assumption|]).
      * right. apply I2. right. assumption.
      * apply I2 in Hq. destruct Hq as [<-|Hq]; [|right; assumption]. left. rewrite <- Hl. apply in_last. discriminate.
Qed.

Lemma sorted_unique P : forall Q, StronglySorted earlier P -> StronglySorted earlier Q -> (forall q, In q P <-> In q Q) -> P = Q.
Proof.
  induction P as [|p P IH]; intros Q HP HQ H.
  - destruct Q as [|q Q]; [reflexivity|]. destruct (proj2 (H q) (or_introl eq_refl)).
  - destruct Q as [|q Q]; [destruct (proj1 (H p) (or_introl eq_refl))|]. inversion HP as [|? ? P1 P2]; inversion HQ as [|? ? Q1 Q2]; subst.
    rewrite Forall_forall in P2, Q2. unfold earlier in P2, Q2.
    assert (p = q).
    { destruct (proj1 (H p) (or_introl eq_refl)) as [E|E]; [auto|]. destruct (proj2 (H q) (or_introl eq_refl)) as [E'|E']; [auto|].
      specialize (P2 _ E'). specialize (Q2 _ E). lia. }
    subst q. f_equal. apply IH; [assumption|assumption|]. intros u. split; intros Hu.
    + destruct (proj1 (H u) (or_intror Hu)) as [E|E]; [|assumption]. subst u. specialize (P2 _ Hu). lia.
    + destruct (proj2 (H u) (or_intror Hu)) as [E|E]; [|assumption]. subst u. specialize (Q2 _ Hu). lia.
Qed.

Lemma points_unique segs P : chained segs -> points_of segs P -> P = points segs.
Proof.
  intros H [H1 H2]. destruct (points_ok segs H) as [G1 G2]. apply sorted_unique; [assumption|assumption|]. intros q. rewrite H2, G2. reflexivity.
Qed.

(** ** Positions *)

(** The point [p] is at position [j] of segment [i], with the points [A] before it and [B] after it. *)
Definition located (segs : list timeline) (i j : nat) (A : timeline) (p : point) (B : timeline) : Prop :=
  exists l1 l2 a b, segs = l1 ++ (a ++ p :: b) :: l2 /\ i = length l1 /\ j = length a /\ A = concat l1 ++ a /\ B = b ++ concat l2.

Lemma located_concat segs i j A p B : located segs i j A p B -> concat segs = A ++ p :: B.
Proof. intros (l1 & l2 & a & b & -> & -> & -> & -> & ->). rewrite concat_app. cbn [concat]. rewrite <- !app_assoc. reflexivity. Qed.

Lemma located_time segs i j A p B : located segs i j A p B -> time_at segs i j = Some (fst p).
Proof. intros (l1 & l2 & a & b & -> & -> & -> & -> & ->). unfold time_at. rewrite nth_error_mid, nth_error_mid. reflexivity. Qed.

Lemma time_located segs i j t : time_at segs i j = Some t -> exists A p B, located segs i j A p B /\ fst p = t.
Proof.
  unfold time_at. destruct (nth_error segs i) as [s|] eqn:E1; [|discriminate]. destruct (nth_error s j) as [p|] eqn:E2; [|discriminate].
  intros H. injection H as <-. apply nth_error_split in E1. destruct E1 as (l1 & l2 & -> & <-). apply nth_error_split in E2. destruct E2 as (a & b & -> & <-).
  exists (concat l1 ++ a), p, (b ++ concat l2). split; [|reflexivity]. exists l1, l2, a, b. auto.
Qed.

Lemma denotes_at segs P i j n : chained segs -> points_of segs P ->
  (denotes segs P (At i j) n <-> exists A p B, located segs i j A p B /\ nth_error P n = Some p).
Proof.
  intros Hc [HP1 HP2]. split.
  - intros (p & H1 & H2). destruct (time_located _ _ _ _ H1) as (A & q & B & H3 & H4). exists A, q, B. split; [assumption|].
    rewrite H2. f_equal. apply (same_time segs); [assumption|apply HP2; eapply nth_error_In; eassumption| |auto].
    rewrite (located_concat _ _ _ _ _ _ H3). apply in_or_app. right. left. reflexivity.
  - intros (A & p & B & H1 & H2). exists p. split; [|assumption]. exact (located_time _ _ _ _ _ _ H1).
Qed.

(** The next point in the ordered list. *)
Lemma nth_next segs P n A p B1 q B2 : chained segs -> points_of segs P -> concat segs = A ++ p :: B1 ++ q :: B2 ->
  Forall (fun r => fst r = fst p) B1 -> fst p < fst q -> (nth_error P n = Some p <-> nth_error P (S n) = Some q).
Proof.
  intros Hc [HP1 HP2] E HB Hpq. pose proof (concat_weak _ Hc) as W. rewrite E in W.
  apply weak_app_inv in W. destruct W as (_ & W & WA). inversion W as [|? ? W1 W2]; subst. apply weak_app_inv in W1. destruct W1 as (_ & W1 & _).
  inversion W1 as [|? ? _ W3]; subst. rewrite Forall_forall in W3, HB. unfold no_later in *.
  assert (Between : forall r, In r P -> fst p < fst r -> fst q <= fst r).
  { intros r Hr Hlt. apply HP2 in Hr. rewrite E in Hr. apply in_app_or in Hr. destruct Hr as [Hr|[Hr|Hr]].
    - specialize (WA r p Hr (or_introl eq_refl)). lia.
    - subst r. lia.
    - apply in_app_or in Hr. destruct Hr as [Hr|[<-|Hr]]; [rewrite (HB r Hr) in Hlt; lia|lia|exact (W3 r Hr)]. }
  assert (InP : In p P) by (apply HP2; rewrite E; apply in_or_app; right; left; reflexivity).
  assert (InQ : In q P) by (apply HP2; rewrite E; apply in_or_app; right; right; apply in_or_app; right; left; reflexivity).
  apply in_split in InP. destruct InP as (P1 & P2 & ->).
  apply sorted_app in HP1. destruct HP1 as (HP1 & HP1' & HPx). inversion HP1' as [|? ? HP3 HP4]; subst. rewrite Forall_forall in HP4. unfold earlier in *.
  assert (E2 : exists P2', P2 = q :: P2').
  { apply in_app_or in InQ. destruct InQ as [InQ|[<-|InQ]]; [specialize (HPx q p InQ (or_introl eq_refl)); lia|lia|].
    destruct P2 as [|r P2]; [contradiction|]. exists P2. f_equal. destruct InQ as [InQ|InQ]; [assumption|]. exfalso.
    inversion HP3 as [|? ? _ HP5]; subst. rewrite Forall_forall in HP5. specialize (HP5 q InQ).
    assert (fst q <= fst r) by (apply Between; [apply in_or_app; right; right; left; reflexivity|apply HP4; left; reflexivity]). lia. }
  destruct E2 as (P2' & ->).
  assert (ND : NoDup (P1 ++ p :: q :: P2')).
  { assert (S1 : StronglySorted earlier (P1 ++ p :: q :: P2')) by (apply sorted_app; auto).
    clear - S1. induction S1; constructor; [|assumption]. intros Hi. rewrite Forall_forall in H. specialize (H _ Hi). unfold earlier in H. lia. }
  assert (Np : nth_error (P1 ++ p :: q :: P2') (length P1) = Some p) by apply nth_error_mid.
  assert (Nq : nth_error (P1 ++ p :: q :: P2') (S (length P1)) = Some q).
  { rewrite nth_error_app2 by lia. replace (S (length P1) - length P1)%nat with 1%nat by lia. reflexivity. }
  rewrite NoDup_nth_error in ND. split; intros H.
  - assert (n = length P1) by (apply ND; [apply nth_error_Some; congruence|congruence]). congruence.
  - assert (S n = S (length P1)) by (apply ND; [apply nth_error_Some; congruence|congruence]). assert (n = length P1) by lia. congruence.
Qed.

(** The last point in the ordered list. *)
Lemma nth_last segs P n A p B : chained segs -> points_of segs P -> concat segs = A ++ p :: B -> Forall (fun r => fst r = fst p) B ->
  (nth_error P n = Some p <-> S n = length P).
Proof.
  intros Hc [HP1 HP2] E HB. pose proof (concat_weak _ Hc) as W. rewrite E in W. apply weak_app_inv in W. destruct W as (_ & _ & WA).
  rewrite Forall_forall in HB. unfold no_later in *.
  assert (InP : In p P) by (apply HP2; rewrite E; apply in_or_app; right; left; reflexivity).
  apply in_split in InP. destruct InP as (P1 & P2 & ->).
  assert (P2 = []).
  { destruct P2 as [|r P2]; [reflexivity|]. exfalso. apply sorted_app in HP1. destruct HP1 as (_ & HP1 & _). inversion HP1 as [|? ? _ H]; subst.
    apply Forall_inv in H. unfold earlier in H. assert (In r (concat segs)) by (apply HP2; apply in_or_app; right; right; left; reflexivity).
    rewrite E in H0. apply in_app_or in H0. destruct H0 as [H0|[H0|H0]]; [specialize (WA r p H0 (or_introl eq_refl)); lia|subst; lia|specialize (HB r H0); lia]. }
  subst P2. rewrite app_length. cbn [length]. split; intros H.
  - destruct (Nat.lt_ge_cases n (length P1)) as [L|L].
    + exfalso. rewrite nth_error_app1 in H by assumption. apply nth_error_In in H. apply sorted_app in HP1. destruct HP1 as (_ & _ & HP1).
      specialize (HP1 p p H (or_introl eq_refl)). lia.
    + assert (n < length (P1 ++ [p]))%nat by (apply nth_error_Some; congruence). rewrite app_length in H0. cbn [length] in H0. lia.
  - assert (n = length P1) by lia. subst n. apply nth_error_mid.
Qed.

(** ** Increment *)

Lemma next_nonempty_spec l i : match next_nonempty l i with
  | None => concat l = []
  | Some i' => exists l1 p s l2, l = l1 ++ (p :: s) :: l2 /\ concat l1 = [] /\ i' = (i + length l1)%nat
  end.
Proof.
  revert i. induction l as [|s l IH]; intros i; cbn [next_nonempty]; [reflexivity|]. destruct s as [|p s]; cbn [is_empty].
  - specialize (IH (S i)). destruct (next_nonempty l (S i)) as [i'|]; [|exact IH]. destruct IH as (l1 & p & s & l2 & -> & H1 & ->).
    exists ([] :: l1), p, s, l2. cbn [app concat length]. repeat split; auto. lia.
  - exists [], p, s, l. cbn. repeat split. lia.
Qed.

(** The successor of a position. *)
Lemma located_next segs i j A p B q : located segs i j A p (q :: B) ->
  exists s, nth_error segs i = Some s /\
  match (if (S j =? length s)%nat then match next_nonempty (skipn (S i) segs) (S i) with None => None | Some i' => Some (i', O) end else Some (i, S j)) with
  | None => False
  | Some (i', j') => located segs i' j' (A ++ [p]) q B
  end.
Proof.
  intros (l1 & l2 & a & b & -> & -> & -> & -> & E). exists (a ++ p :: b). rewrite nth_error_mid. split; [reflexivity|].
  rewrite app_length. cbn [length]. destruct b as [|q' b].
  - cbn [length]. replace (S (length a) =? length a + 1)%nat with true by (symmetry; apply Nat.eqb_eq; lia).
    rewrite skipn_mid_S. pose proof (next_nonempty_spec l2 (S (length l1))) as N. cbn [app] in E.
    destruct (next_nonempty l2 (S (length l1))) as [i'|]; [|rewrite <- E in N; discriminate].
    destruct N as (k1 & p' & s & k2 & -> & N1 & ->). rewrite concat_app, N1 in E. cbn [app concat] in E. injection E as -> ->.
    exists (l1 ++ (a ++ [p]) :: k1), k2, [], s. cbn [app length]. rewrite <- app_assoc. cbn [app]. repeat split.
    + rewrite app_length. cbn. lia.
    + rewrite concat_app. cbn [concat]. rewrite N1, !app_nil_r. rewrite app_assoc. reflexivity.
  - injection E as -> ->. cbn [length]. replace (S (length a) =? length a + S (S (length b)))%nat with false by (symmetry; apply Nat.eqb_neq; lia).
    exists l1, l2, (a ++ [p]), b. rewrite <- app_assoc. cbn [app]. repeat split; [rewrite app_length; cbn; lia|rewrite app_assoc; reflexivity].
Qed.

Lemma located_end segs i j A p : located segs i j A p [] ->
  exists s, nth_error segs i = Some s /\ S j = length s /\ next_nonempty (skipn (S i) segs) (S i) = None.
Proof.
  intros (l1 & l2 & a & b & -> & -> & -> & -> & E). symmetry in E. apply app_eq_nil in E. destruct E as [-> E]. exists (a ++ [p]). rewrite nth_error_mid. split; [reflexivity|].
  split; [rewrite app_length; cbn; lia|]. rewrite skipn_mid_S. pose proof (next_nonempty_spec l2 (S (length l1))) as N. destruct (next_nonempty l2 (S (length l1))); [|reflexivity].
  exfalso. destruct N as (k1 & p' & s & k2 & -> & _). rewrite concat_app in E. apply app_eq_nil in E. destruct E as [_ E]. discriminate.
Qed.

Lemma increment_loop_end fuel segs t i j A p B : located segs i j A p B -> (length B < fuel)%nat -> Forall (fun r => fst r = t) B ->
  increment_loop fuel segs t i j = Done End.
Proof.
  revert i j A p B. induction fuel as [|fuel IH]; intros i j A p B L F H; [lia|]. cbn [increment_loop]. destruct B as [|q B].
  - destruct (located_end _ _ _ _ _ L) as (s & S1 & S2 & S3). rewrite S1. cbn [defined bind]. rewrite S2, Nat.eqb_refl, S3. reflexivity.
  - destruct (located_next _ _ _ _ _ _ _ L) as (s & S1 & S2). rewrite S1. cbn [defined bind].
    destruct (if (S j =? length s)%nat then _ else _) as [[i' j']|]; [|contradiction]. rewrite (located_time _ _ _ _ _ _ S2). cbn [defined bind].
    apply Forall_cons_iff in H. destruct H as [H1 H2]. rewrite H1, Z.eqb_refl. cbn [length] in F. eapply IH; [exact S2|lia|assumption].
Qed.

Lemma increment_loop_next fuel segs t i j A p B1 q B2 : located segs i j A p (B1 ++ q :: B2) -> (length B1 < fuel)%nat -> Forall (fun r => fst r = t) B1 -> fst q <> t ->
  exists i' j', increment_loop fuel segs t i j = Done (At i' j') /\ located segs i' j' (A ++ p :: B1) q B2.
Proof.
  revert i j A p B1. induction fuel as [|fuel IH]; intros i j A p B1 L F H Hq; [lia|]. cbn [increment_loop]. destruct B1 as [|q1 B1]; cbn [app] in L.
  - destruct (located_next _ _ _ _ _ _ _ L) as (s & S1 & S2). rewrite S1. cbn [defined bind].
    destruct (if (S j =? length s)%nat then _ else _) as [[i' j']|]; [|contradiction]. rewrite (located_time _ _ _ _ _ _ S2). cbn [defined bind].
    destruct (Z.eqb_spec (fst q) t); [contradiction|]. eauto.
  - destruct (located_next _ _ _ _ _ _ _ L) as (s & S1 & S2). rewrite S1. cbn [defined bind].
    destruct (if (S j =? length s)%nat then _ else _) as [[i' j']|]; [|contradiction]. rewrite (located_time _ _ _ _ _ _ S2). cbn [defined bind].
    apply Forall_cons_iff in H. destruct H as [H1 H2]. rewrite H1, Z.eqb_refl. cbn [length] in F.
    destruct (IH i' j' (A ++ [p]) q1 B1 S2 ltac:(lia) H2 Hq) as (i'' & j'' & G1 & G2). rewrite <- app_assoc in G2. eauto.
Qed.

(** The points at the same time as [p] come first. *)
Lemma split_same p B : StronglySorted no_later (p :: B) -> Forall (fun r => fst r = fst p) B \/
  exists B1 q B2, B = B1 ++ q :: B2 /\ Forall (fun r => fst r = fst p) B1 /\ fst p < fst q.
Proof.
  induction B as [|r B IH]; intros H; [left; constructor|]. inversion H as [|? ? H1 H2]; subst. inversion H1 as [|? ? H3 H4]; subst. apply Forall_cons_iff in H2. destruct H2 as [H2 H5].
  unfold no_later in H2. destruct (Z.eq_dec (fst r) (fst p)) as [E|E].
  - destruct IH as [IH|(B1 & q & B2 & -> & I1 & I2)]; [constructor; assumption|left; constructor; assumption|].
    right. exists (r :: B1), q, B2. repeat split; [constructor; assumption|assumption].
  - right. exists [], r, B. repeat split; [constructor|lia].
Qed.

Lemma located_total segs i j A p B : located segs i j A p B -> (length A + length B < total segs)%nat.
Proof. intros H. unfold total. rewrite (located_concat _ _ _ _ _ _ H), app_length. cbn [length]. lia. Qed.

Theorem increment_ok segs P it n : chained segs -> points_of segs P -> denotes segs P it n -> (n < length P)%nat ->
  exists it', increment segs it = Done it' /\ denotes segs P it' (S n).
Proof.
  intros Hc HP HD Hn. destruct it as [i j|]; [|cbn in HD; lia]. apply (denotes_at _ _ _ _ _ Hc HP) in HD. destruct HD as (A & p & B & L & Np).
  pose proof (concat_weak _ Hc) as W. pose proof (located_concat _ _ _ _ _ _ L) as E. pose proof (located_total _ _ _ _ _ _ L) as T.
  rewrite E in W. apply weak_app_inv in W. destruct W as (_ & W & _). cbn [increment]. rewrite (located_time _ _ _ _ _ _ L). cbn [defined bind].
  destruct (split_same _ _ W) as [S1|(B1 & q & B2 & -> & S1 & S2)].
  - rewrite (increment_loop_end _ _ _ _ _ _ _ _ L) by (lia || assumption). exists End. split; [reflexivity|]. cbn. apply (nth_last segs P n A p B Hc HP E S1). assumption.
  - rewrite app_length in T. cbn [length] in T.
    destruct (increment_loop_next (S (total segs)) segs (fst p) i j A p B1 q B2 L) as (i' & j' & G1 & G2); [lia|assumption|lia|].
    rewrite G1. eexists. split; [reflexivity|]. apply (denotes_at _ _ _ _ _ Hc HP). exists (A ++ p :: B1), q, B2. split; [assumption|].
    apply (nth_next segs P n A p B1 q B2); assumption.
Qed.

(** ** Decrement *)

Lemma located_prev segs i j A q p B : chained segs -> located segs i j (A ++ [q]) p B ->
  exists i' j', match j with
    | O => match i with O => Crash | S i' => do s <- defined (nth_error segs i'); match length s with O => UB | S j' => Done (i', j') end end
    | S j' => Done (i, j')
    end = Done (i', j') /\ located segs i' j' A q (p :: B).
Proof.
  intros Hc (l1 & l2 & a & b & -> & -> & -> & E & ->). destruct a as [|q' a] using rev_ind.
  - rewrite app_nil_r in E. cbn [length app]. destruct l1 as [|s1 l1] using rev_ind; [destruct A; discriminate|]. clear IHl1.
    rewrite app_length, Nat.add_1_r. cbn [length]. rewrite <- app_assoc. cbn [app]. rewrite nth_error_mid. cbn [defined bind].
    destruct s1 as [|q1 s1] using rev_ind.
    + exfalso. rewrite <- app_assoc in Hc. cbn [app] in Hc. apply chained_nil_prefix in Hc. rewrite concat_app, (concat_all_nil _ Hc) in E. destruct A; discriminate.
    + clear IHs1. rewrite app_length, Nat.add_1_r. cbn [length].
      rewrite concat_app in E. cbn [concat] in E. rewrite app_nil_r, app_assoc in E. apply app_inj_tail in E. destruct E as [-> <-].
      eexists _, _. split; [reflexivity|]. exists l1, ((p :: b) :: l2), s1, []. auto 6.
  - clear IHa. rewrite app_length, Nat.add_1_r. rewrite app_assoc in E. apply app_inj_tail in E. destruct E as [-> <-].
    eexists _, _. split; [reflexivity|]. exists l1, l2, a, (p :: b). rewrite <- app_assoc. auto 6.
Qed.

Lemma decrement_loop_prev fuel segs t i j A q A1 p B : chained segs -> located segs i j (A ++ q :: A1) p B -> (length A1 < fuel)%nat -> Forall (fun r => fst r = t) A1 -> fst q <> t ->
  exists i' j', decrement_loop fuel segs (Some t) i j = Done (At i' j') /\ located segs i' j' A q (A1 ++ p :: B).
Proof.
  intros Hc. revert i j A1 p B. induction fuel as [|fuel IH]; intros i j A1 p B L F H Hq; [lia|]. cbn [decrement_loop].
  destruct A1 as [|q1 A1] using rev_ind.
  - destruct (located_prev _ _ _ _ _ _ _ Hc L) as (i' & j' & G1 & G2). rewrite G1. cbn [bind]. rewrite (located_time _ _ _ _ _ _ G2). cbn [defined bind].
    destruct (Z.eqb_spec (fst q) t); [contradiction|]. eauto.
  - clear IHA1. replace (A ++ q :: A1 ++ [q1]) with ((A ++ q :: A1) ++ [q1]) in L by (rewrite <- app_assoc; reflexivity).
    destruct (located_prev _ _ _ _ _ _ _ Hc L) as (i' & j' & G1 & G2). rewrite G1. cbn [bind]. rewrite (located_time _ _ _ _ _ _ G2). cbn [defined bind].
    apply Forall_app in H. destruct H as [H1 H2]. apply Forall_inv in H2. rewrite H2, Z.eqb_refl. rewrite app_length in F. cbn [length] in F.
    destruct (IH i' j' A1 q1 (p :: B) G2 ltac:(lia) H1 Hq) as (i'' & j'' & K1 & K2). rewrite <- app_assoc. eauto.
Qed.

Lemma split_same_rev (A : timeline) (p : point) : (forall r, In r A -> fst r <= fst p) -> Forall (fun r => fst r = fst p) A \/
  exists A0 q A1, A = A0 ++ q :: A1 /\ Forall (fun r => fst r = fst p) A1 /\ fst q < fst p.
Proof.
  induction A as [|r A IH] using rev_ind; intros H; [left; constructor|].
  assert (fst r <= fst p) by (apply H; apply in_or_app; right; left; reflexivity). destruct (Z.eq_dec (fst r) (fst p)) as [E|E].
  - destruct IH as [IH|(A0 & q & A1 & -> & I1 & I2)]; [intros; apply H; apply in_or_app; left; assumption|left; apply Forall_app; split; [assumption|repeat constructor; assumption]|].
    right. exists A0, q, (A1 ++ [r]). rewrite <- app_assoc. repeat split; [|assumption]. apply Forall_app; split; [assumption|repeat constructor; assumption].
  - right. exists A, r, []. repeat split; [constructor|lia].
Qed.

Theorem decrement_ok segs P it n : chained segs -> points_of segs P -> denotes segs P it (S n) ->
  exists it', decrement segs it = Done it' /\ denotes segs P it' n.
Proof.
  intros Hc HP HD. pose proof (concat_weak _ Hc) as W. destruct it as [i j|].
  - pose proof HD as HD'. apply (denotes_at _ _ _ _ _ Hc HP) in HD. destruct HD as (A & p & B & L & Np).
    pose proof (located_concat _ _ _ _ _ _ L) as E. pose proof (located_total _ _ _ _ _ _ L) as T.
    rewrite E in W. apply weak_app_inv in W. destruct W as (_ & W & WA).
    cbn [decrement]. rewrite (located_time _ _ _ _ _ _ L). cbn [defined bind].
    destruct (split_same_rev A p) as [S1|(A0 & q & A1 & -> & S1 & S2)]; [intros r Hr; apply WA; [assumption|left; reflexivity]| |].
    + (* the first point cannot have number [S n] *)
      exfalso. destruct HP as [HP1 HP2]. destruct P as [|p0 P]; [discriminate|]. cbn [nth_error] in Np. apply nth_error_In in Np.
      inversion HP1 as [|? ? _ HP3]; subst. rewrite Forall_forall in HP3. specialize (HP3 p Np). unfold earlier in HP3.
      assert (In p0 (concat segs)) by (apply HP2; left; reflexivity). rewrite E in H. apply in_app_or in H. rewrite Forall_forall in S1.
      destruct H as [H|[H|H]]; [specialize (S1 p0 H); lia|subst; lia|]. inversion W as [|? ? _ W2]; subst. rewrite Forall_forall in W2. specialize (W2 p0 H). unfold no_later in W2. lia.
    + rewrite app_length in T. cbn [length] in T.
      destruct (decrement_loop_prev (S (total segs)) segs (fst p) i j A0 q A1 p B Hc L) as (i' & j' & G1 & G2); [lia|assumption|lia|].
      rewrite G1. eexists. split; [reflexivity|]. apply (denotes_at _ _ _ _ _ Hc HP). exists A0, q, (A1 ++ p :: B). split; [assumption|].
      (* among the points at the time of [p], [q]'s successor is the first; they are all equal to [p] *)
      assert (Hall : forall r, In r A1 -> r = p).
      { intros r Hr. rewrite Forall_forall in S1. apply (same_time segs); [assumption| | |apply S1; assumption];
          rewrite E; apply in_or_app; [left; apply in_or_app; right; right; assumption|right; left; reflexivity]. }
      rewrite <- app_assoc in E. cbn [app] in E. destruct A1 as [|r A1].
      * apply (nth_next segs P n A0 q [] p B Hc HP E); [constructor|assumption|assumption].
      * assert (r = p) by (apply Hall; left; reflexivity). subst r.
        apply (nth_next segs P n A0 q [] p (A1 ++ p :: B) Hc HP E); [constructor|assumption|assumption].
  - cbn in HD. cbn [decrement].
    assert (Hne : concat segs <> []).
    { destruct HP as [_ HP2]. destruct P as [|p0 P]; [discriminate|]. intros H. assert (In p0 (concat segs)) by (apply HP2; left; reflexivity). rewrite H in H0. contradiction. }
    destruct (exists_last Hne) as (A & p & E). destruct (chained_last _ _ _ Hc E) as (segs' & s & Es). rewrite Es. rewrite app_length, Nat.add_1_r. cbn [length].
    rewrite nth_error_mid. cbn [defined bind]. rewrite app_length, Nat.add_1_r. cbn [decrement_loop bind].
    assert (L : located segs (length segs') (length s) A p []).
    { exists segs', [], s, []. rewrite Es in E. rewrite concat_app in E. cbn [concat] in E. rewrite app_nil_r, app_assoc in E. apply app_inj_tail in E. destruct E as [<- _]. auto 6. }
    rewrite <- Es. rewrite (located_time _ _ _ _ _ _ L). cbn [defined bind]. eexists. split; [reflexivity|].
    apply (denotes_at _ _ _ _ _ Hc HP). exists A, p, []. split; [assumption|]. apply (nth_last segs P n A p [] Hc HP E); [constructor|assumption].
Qed.

(** ** Equality, begin, size *)

Lemma nth_time segs P n m p q : points_of segs P -> nth_error P n = Some p -> nth_error P m = Some q -> (fst p = fst q <-> n = m).
Proof.
  intros [H _]. assert (G : forall n m (p q : point), (n < m)%nat -> nth_error P n = Some p -> nth_error P m = Some q -> fst p < fst q).
  { clear - H. intros n m p q L Hp Hq. apply nth_error_split in Hp. destruct Hp as (P1 & P2 & -> & <-). apply sorted_app in H. destruct H as (_ & H & _).
    inversion H as [|? ? _ H2]; subst. rewrite nth_error_app2 in Hq by lia. destruct (m - length P1)%nat as [|k] eqn:E; [lia|]. cbn in Hq. apply nth_error_In in Hq.
    rewrite Forall_forall in H2. exact (H2 q Hq). }
  intros Hp Hq. split; [|intros ->; congruence]. intros E. destruct (Nat.lt_trichotomy n m) as [L|[L|L]]; [specialize (G _ _ _ _ L Hp Hq); lia|assumption|specialize (G _ _ _ _ L Hq Hp); lia].
Qed.

Theorem iterator_eq_ok segs P a b n m : points_of segs P -> denotes segs P a n -> denotes segs P b m -> iterator_eq segs a b = Done (n =? m)%nat.
Proof.
  intros HP Ha Hb. destruct a as [i j|]; destruct b as [i' j'|]; cbn [denotes iterator_eq] in *.
  - destruct Ha as (p & -> & Hp). destruct Hb as (q & -> & Hq). cbn [defined bind]. f_equal. pose proof (nth_time _ _ _ _ _ _ HP Hp Hq).
    destruct (Z.eqb_spec (fst p) (fst q)); destruct (Nat.eqb_spec n m); tauto.
  - destruct Ha as (p & _ & Hp). assert (n < length P)%nat by (apply nth_error_Some; congruence). f_equal. symmetry. apply Nat.eqb_neq. lia.
  - destruct Hb as (p & _ & Hp). assert (m < length P)%nat by (apply nth_error_Some; congruence). f_equal. symmetry. apply Nat.eqb_neq. lia.
  - f_equal. symmetry. apply Nat.eqb_eq. lia.
Qed.

Lemma nth_first segs P A p B : chained segs -> points_of segs P -> concat segs = A ++ p :: B -> Forall (fun r => fst r = fst p) A -> nth_error P 0 = Some p.
Proof.
  intros Hc [HP1 HP2] E HA. rewrite Forall_forall in HA. pose proof (concat_weak _ Hc) as W. rewrite E in W. apply weak_app_inv in W. destruct W as (_ & W & _). inversion W as [|? ? _ W2]; subst.
  rewrite Forall_forall in W2. unfold no_later in W2. assert (Ip : In p P) by (apply HP2; rewrite E; apply in_or_app; right; left; reflexivity).
  destruct P as [|p0 P]; [contradiction|]. cbn. f_equal. inversion HP1 as [|? ? _ HP3]; subst. rewrite Forall_forall in HP3. unfold earlier in HP3.
  destruct Ip as [Ip|Ip]; [assumption|]. exfalso. specialize (HP3 p Ip). assert (I0 : In p0 (concat segs)) by (apply HP2; left; reflexivity). rewrite E in I0.
  apply in_app_or in I0. destruct I0 as [I0|[I0|I0]]; [specialize (HA p0 I0); lia|subst; lia|specialize (W2 p0 I0); lia].
Qed.

(** The first entry of the map. *)
Lemma expected_first i segs t k m : chained segs -> expected i segs = (t, (i + k)%nat) :: m -> exists l1 p s l2, segs = l1 ++ (p :: s) :: l2 /\ k = length l1 /\ fst p = t /\ Forall (fun r => fst r = t) (concat l1).
Proof.
  revert i k. induction segs as [|s r IH]; intros i k H E; [discriminate|]. destruct s as [|p [|q s]].
  - rewrite expected_cons_nil in E. pose proof (expected_index_hd _ _ _ _ _ E). destruct k as [|k]; [lia|]. replace (i + S k)%nat with (S i + k)%nat in E by lia.
    destruct (IH _ _ (chained_tail _ _ H) E) as (l1 & p & s & l2 & -> & -> & H1 & H2). exists ([] :: l1), p, s, l2. auto.
  - destruct r as [|s2 r].
    + rewrite expected_cons_last in E. injection E as <- E <-. exists [], p, [], []. repeat split; [cbn; lia|constructor].
    + rewrite expected_cons_one in E. pose proof (expected_index_hd _ _ _ _ _ E). destruct k as [|k]; [lia|]. replace (i + S k)%nat with (S i + k)%nat in E by lia.
      destruct (IH _ _ (chained_tail _ _ H) E) as (l1 & p' & s & l2 & Er & -> & H1 & H2). rewrite Er in H. exists ([p] :: l1), p', s, l2. rewrite Er. repeat split; [assumption|].
      cbn [concat app]. constructor; [|assumption]. destruct l1 as [|s1 l1]; cbn [app] in H.
      * pose proof (chained_next _ _ _ _ _ H) as N. cbn in N. rewrite N. exact H1.
      * destruct (chained_not_nil _ _ _ _ H) as (h & s1' & -> & N). cbn in N. subst h. cbn [concat app] in H2. exact (Forall_inv H2).
  - rewrite expected_cons_multi in E. injection E as <- E _. exists [], p, (q :: s), r. repeat split; [cbn; lia|constructor].
Qed.

Lemma make_iterator_ok l1 a p b l2 : make_iterator (l1 ++ (a ++ p :: b) :: l2) (length l1) (length a) = At (length l1) (length a).
Proof.
  unfold make_iterator. rewrite skipn_mid. cbn [next_nonempty]. destruct (a ++ p :: b) eqn:E; [destruct a; discriminate|]. cbn [is_empty]. rewrite Nat.eqb_refl. reflexivity.
Qed.

Theorem begin_ok x P : wf x -> points_of (segments x) P -> exists it, begin x = Done it /\ denotes (segments x) P it 0.
Proof.
  intros [Hc Hm] HP. unfold begin. rewrite Hm. destruct (expected 0 (segments x)) as [|[t k] m] eqn:E.
  - eexists. split; [reflexivity|]. cbn. apply (expected_nil _ _ Hc) in E. destruct HP as [_ HP]. rewrite (concat_all_nil _ E) in HP.
    destruct P as [|p P]; [reflexivity|]. destruct (proj1 (HP p) (or_introl eq_refl)).
  - destruct (expected_first 0 _ t k m Hc E) as (l1 & p & s & l2 & Es & -> & <- & H2).
    pose proof (make_iterator_ok l1 [] p s l2) as M. cbn [app length] in M. rewrite <- Es in M. rewrite M. eexists. split; [reflexivity|].
    apply (denotes_at _ _ _ _ _ Hc HP). exists (concat l1), p, (s ++ concat l2).
    assert (L : located (segments x) (length l1) 0 (concat l1) p (s ++ concat l2)) by (exists l1, l2, [], s; rewrite app_nil_r; auto 6).
    split; [exact L|]. apply (nth_first _ _ _ _ _ Hc HP (located_concat _ _ _ _ _ _ L) H2).
Qed.

Lemma size_points segs : chained segs ->
  (match points segs with [] => 0 | _ => 1 end) + fold_right (fun s n => (if is_empty s then 0 else Z.of_nat (length s)) + n) 0 segs
    - fold_right (fun s n => (if is_empty s then 0 else 1) + n) 0 segs = Z.of_nat (length (points segs)).
Proof.
  induction segs as [|s r IH]; intros H; [reflexivity|]. specialize (IH (chained_tail _ _ H)). cbn [fold_right points]. destruct s as [|p s]; cbn [is_empty]; [lia|].
  set (F := fold_right (fun s n => (if is_empty s then 0 else Z.of_nat (length s)) + n) 0 r) in *. set (G := fold_right _ 0 r) in *.
  change ((p :: s) ++ tl (points r)) with (p :: (s ++ tl (points r))). cbn [length]. rewrite app_length.
  destruct (points r); cbn [tl length] in *; lia.
Qed.

Theorem size_ok x P : wf x -> points_of (segments x) P -> size x = Z.of_nat (length P).
Proof.
  intros W HP. pose proof W as [Hc _]. rewrite (points_unique _ _ Hc HP). destruct (points_ok _ Hc) as [_ Hin]. rewrite <- size_points by assumption. unfold size.
  destruct (empty x) eqn:E.
  - apply (empty_spec _ W) in E. assert (E2 : points (segments x) = []).
    { destruct (points (segments x)) as [|p P'] eqn:EP; [reflexivity|]. pose proof (proj1 (Hin p) (or_introl eq_refl)) as K. rewrite E in K. contradiction. }
    pose proof (size_points _ Hc) as S. rewrite E2 in S. rewrite E2. cbn [length] in S. lia.
  - destruct (points (segments x)) as [|p P'] eqn:EP; [|reflexivity]. exfalso.
    assert (concat (segments x) = []) by (destruct (concat (segments x)) as [|q C]; [reflexivity|]; destruct (proj2 (Hin q) (or_introl eq_refl))).
    apply (empty_spec _ W) in H. congruence.
Qed.

(** ** Moving by several points *)

(** Within a segment the points are consecutive. *)
Lemma denotes_forward segs P i j k n s : chained segs -> points_of segs P -> nth_error segs i = Some s -> (j + k < length s)%nat ->
  denotes segs P (At i j) n -> denotes segs P (At i (j + k)) (n + k).
Proof.
  intros Hc HP Hs. induction k as [|k IH]; intros Hk HD; [rewrite !Nat.add_0_r; assumption|].
  specialize (IH ltac:(lia) HD). clear HD. apply (denotes_at _ _ _ _ _ Hc HP) in IH. destruct IH as (A & p & B & L & Np). apply (denotes_at _ _ _ _ _ Hc HP).
  destruct L as (l1 & l2 & a & b & Es & Ei & Ej & EA & EB). subst i. rewrite Es, nth_error_mid in Hs. injection Hs as <-. rewrite app_length in Hk. cbn [length] in Hk.
  destruct b as [|q b]; [cbn [length] in Hk; lia|].
  assert (L : located segs (length l1) (j + S k) (A ++ [p]) q (b ++ concat l2)).
  { exists l1, l2, (a ++ [p]), b. rewrite <- app_assoc. cbn [app]. rewrite app_length. cbn [length]. repeat split; [assumption|lia|]. rewrite EA, app_assoc. reflexivity. }
  exists (A ++ [p]), q, (b ++ concat l2). split; [exact L|]. replace (n + S k)%nat with (S (n + k)) by lia.
  pose proof (located_concat _ _ _ _ _ _ L) as E. rewrite <- app_assoc in E. cbn [app] in E.
  apply (nth_next segs P (n + k) A p [] q (b ++ concat l2) Hc HP E); [constructor| |assumption].
  assert (sorted (a ++ p :: q :: b)) by (apply (chained_sorted segs); [assumption|]; rewrite Es; apply in_or_app; right; left; reflexivity).
  apply sorted_app in H. destruct H as (_ & H & _). inversion H as [|? ? _ H2]; subst. exact (Forall_inv H2).
Qed.

Lemma denotes_valid segs P i j n : denotes segs P (At i j) n -> exists s, nth_error segs i = Some s /\ (j < length s)%nat.
Proof.
  intros (p & H & _). unfold time_at in H. destruct (nth_error segs i) as [s|]; [|discriminate]. exists s. split; [reflexivity|].
  apply nth_error_Some. destruct (nth_error s j); [discriminate|discriminate H].
Qed.

Lemma denotes_bound segs P it n : denotes segs P it n -> (n <= length P)%nat.
Proof. destruct it; [intros (p & _ & H); assert (n < length P)%nat by (apply nth_error_Some; congruence); lia|cbn; lia]. Qed.

Lemma denotes_at_lt segs P i j n : denotes segs P (At i j) n -> (n < length P)%nat.
Proof. intros (p & _ & H). apply nth_error_Some. congruence. Qed.

(** Backwards, for positions known to be valid. *)
Lemma denotes_inj segs P i j n m : points_of segs P -> denotes segs P (At i j) n -> denotes segs P (At i j) m -> n = m.
Proof. intros HP (p & H1 & H2) (q & H3 & H4). apply (nth_time segs P n m p q HP H2 H4). congruence. Qed.

Lemma denotes_exists segs P i j s : chained segs -> points_of segs P -> nth_error segs i = Some s -> (j < length s)%nat -> exists n, denotes segs P (At i j) n.
Proof.
  intros Hc [_ HP] Hs Hj. apply nth_error_Some in Hj. destruct (nth_error s j) as [p|] eqn:E; [|contradiction].
  assert (In p P). { apply HP. apply in_concat. exists s. split; [exact (nth_error_In _ _ Hs)|exact (nth_error_In _ _ E)]. }
  apply In_nth_error in H. destruct H as (n & H). exists n, p. unfold time_at. rewrite Hs, E. auto.
Qed.

Lemma denotes_backward segs P i j k n s : chained segs -> points_of segs P -> nth_error segs i = Some s ->
  denotes segs P (At i (j + k)) n -> (k <= n)%nat /\ denotes segs P (At i j) (n - k).
Proof.
  intros Hc HP Hs HD. destruct (denotes_valid _ _ _ _ _ HD) as (s' & Hs' & Hj). rewrite Hs in Hs'. injection Hs' as <-.
  destruct (denotes_exists segs P i j s Hc HP Hs ltac:(lia)) as (m & Hm). pose proof (denotes_forward _ _ _ _ _ _ _ Hc HP Hs Hj Hm) as G.
  pose proof (denotes_inj _ _ _ _ _ _ HP HD G). subst n. split; [lia|]. rewrite Nat.add_sub. assumption.
Qed.

Theorem advance_ok segs P it n m : chained segs -> points_of segs P -> denotes segs P it n -> (n + m <= length P)%nat ->
  exists it', advance segs m it = Done it' /\ denotes segs P it' (n + m).
Proof.
  intros Hc HP. unfold advance. assert (G : forall fuel m it n, (m <= fuel)%nat -> denotes segs P it n -> (n + m <= length P)%nat ->
    exists it', advance_loop fuel segs m it = Done it' /\ denotes segs P it' (n + m)); [|intros; apply G; auto].
  clear it n m. induction fuel as [|fuel IH]; intros m it n F HD Hn; destruct m as [|m]; [|lia| |]; try (exists it; rewrite Nat.add_0_r; split; [reflexivity|assumption]).
  cbn [advance_loop]. destruct it as [i j|]; [|cbn in HD; lia]. destruct (denotes_valid _ _ _ _ _ HD) as (s & Hs & Hj). rewrite Hs. cbn [defined bind].
  destruct ((2 <? length s)%nat && (length s <=? S m + 2)%nat && (j =? 1)%nat) eqn:C.
  - apply andb_true_iff in C. destruct C as [C C3]. apply andb_true_iff in C. destruct C as [C1 C2]. apply Nat.ltb_lt in C1. apply Nat.leb_le in C2. apply Nat.eqb_eq in C3. subst j.
    pose proof (denotes_forward segs P i 1 (length s - 2) n s Hc HP Hs ltac:(lia) HD) as HD'. replace (1 + (length s - 2))%nat with (length s - 1)%nat in HD' by lia.
    destruct (IH (S m - (length s - 2))%nat (At i (length s - 1)) (n + (length s - 2))%nat) as (it' & G1 & G2); [lia|assumption|lia|].
    exists it'. split; [exact G1|]. replace (n + (length s - 2) + (S m - (length s - 2)))%nat with (n + S m)%nat in G2 by lia. assumption.
  - destruct (increment_ok segs P (At i j) n Hc HP HD) as (it1 & I1 & I2); [lia|]. rewrite I1. cbn [bind].
    destruct (IH (S m - 1)%nat it1 (S n)) as (it' & G1 & G2); [lia|assumption|lia|]. exists it'. split; [exact G1|]. replace (S n + (S m - 1))%nat with (n + S m)%nat in G2 by lia. assumption.
Qed.

Theorem retreat_ok segs P it n m : chained segs -> points_of segs P -> denotes segs P it n -> (m <= n)%nat ->
  exists it', retreat segs m it = Done it' /\ denotes segs P it' (n - m).
Proof.
  intros Hc HP. assert (G : forall fuel m it n, (m <= fuel)%nat -> (n < length P)%nat -> denotes segs P it n -> (m <= n)%nat ->
    exists it', retreat_loop fuel segs m it = Done it' /\ denotes segs P it' (n - m)).
  { clear it n m. induction fuel as [|fuel IH]; intros m it n F Hlt HD Hn; destruct m as [|m]; [|lia| |]; try (exists it; rewrite Nat.sub_0_r; split; [reflexivity|assumption]).
    cbn [retreat_loop]. destruct it as [i j|]; [|cbn in HD; lia]. destruct (denotes_valid _ _ _ _ _ HD) as (s & Hs & Hj). rewrite Hs. cbn [defined bind].
    destruct ((2 <? length s)%nat && (length s <=? S m + 2)%nat && (j =? length s - 2)%nat) eqn:C.
    - apply andb_true_iff in C. destruct C as [C C3]. apply andb_true_iff in C. destruct C as [C1 C2]. apply Nat.ltb_lt in C1. apply Nat.leb_le in C2. apply Nat.eqb_eq in C3. subst j.
      destruct (denotes_backward segs P i 0 (length s - 2) n s Hc HP Hs HD) as [K HD'].
      destruct (IH (S m - (length s - 2))%nat (At i 0) (n - (length s - 2))%nat) as (it' & G1 & G2); [lia|lia|assumption|lia|].
      exists it'. split; [exact G1|]. replace (n - (length s - 2) - (S m - (length s - 2)))%nat with (n - S m)%nat in G2 by lia. assumption.
    - destruct n as [|n]; [lia|]. destruct (decrement_ok segs P (At i j) n Hc HP HD) as (it1 & I1 & I2). rewrite I1. cbn [bind].
      destruct (IH (S m - 1)%nat it1 n) as (it' & G1 & G2); [lia|lia|assumption|lia|]. exists it'. split; [exact G1|]. replace (n - (S m - 1))%nat with (S n - S m)%nat in G2 by lia. assumption. }
  intros HD Hn. unfold retreat. destruct m as [|m]; [exists it; rewrite Nat.sub_0_r; split; [reflexivity|assumption]|].
  destruct it as [i j|].
  - apply G; [lia|exact (denotes_at_lt _ _ _ _ _ HD)|assumption|assumption].
  - destruct n as [|n]; [lia|]. destruct (decrement_ok segs P End n Hc HP HD) as (it1 & I1 & I2). rewrite I1. cbn [bind]. cbn in HD.
    destruct (G m m it1 n) as (it' & G1 & G2); [lia|lia|assumption|lia|]. exists it'. split; [exact G1|exact G2].
Qed.

Theorem distance_ok segs P l r n m : chained segs -> points_of segs P -> denotes segs P l n -> denotes segs P r m -> (m <= n)%nat ->
  distance segs l r = Done (n - m)%nat.
Proof.
  intros Hc HP Hl Hr Hmn. unfold distance.
  assert (HPlen : (length P <= total segs)%nat).
  { unfold total. apply NoDup_incl_length; [|intros q Hq; apply (proj2 HP); assumption]. destruct HP as [HP _]. clear - HP. induction HP; constructor; [|assumption].
    intros Hi. rewrite Forall_forall in H. specialize (H _ Hi). unfold earlier in H. lia. }
  assert (LT : exists lt, match l with End => Done None | At i j => do t <- defined (time_at segs i j); Done (Some t) end = Done lt /\
    forall i s q, nth_error segs i = Some s -> nth_error s (length s - 1) = Some q -> match lt with Some t => fst q <=? t | None => true end = true ->
      forall k, denotes segs P (At i (length s - 1)) k -> (k <= n)%nat).
  { destruct l as [i j|].
    - destruct Hl as (p & H1 & H2). rewrite H1. cbn [defined bind]. eexists. split; [reflexivity|]. intros i' s q Hs Hq Hle k (q' & K1 & K2).
      unfold time_at in K1. rewrite Hs, Hq in K1. injection K1 as K1. apply Z.leb_le in Hle.
      destruct (le_lt_dec k n) as [|Hlt]; [assumption|]. exfalso. destruct HP as [HP _].
      apply nth_error_split in H2. destruct H2 as (P1 & P2 & -> & <-). rewrite nth_error_app2 in K2 by lia. destruct (k - length P1)%nat as [|z] eqn:Ez; [lia|]. cbn in K2.
      apply nth_error_In in K2. apply sorted_app in HP. destruct HP as (_ & HP & _). inversion HP as [|? ? _ HP3]; subst. rewrite Forall_forall in HP3. specialize (HP3 q' K2). unfold earlier in HP3. lia.
    - cbn in Hl. subst n. eexists. split; [reflexivity|]. intros i s q _ _ _ k Hk. exact (denotes_bound _ _ _ _ Hk). }
  destruct LT as (lt & -> & LT). cbn [bind].
  assert (G : forall fuel m it acc, (n - m < fuel)%nat -> (m <= n)%nat -> denotes segs P it m -> distance_loop fuel segs l lt it acc = Done (acc + (n - m))%nat).
  { clear m Hr r Hmn. induction fuel as [|fuel IH]; intros m it acc F Hmn HD; [lia|]. cbn [distance_loop]. rewrite (iterator_eq_ok _ _ _ _ _ _ HP HD Hl). cbn [bind].
    destruct (Nat.eqb_spec m n); [subst; f_equal; lia|]. destruct it as [i j|]; [|cbn in HD; pose proof (denotes_bound _ _ _ _ Hl); lia].
    destruct (denotes_valid _ _ _ _ _ HD) as (s & Hs & Hj). rewrite Hs. cbn [defined bind].
    assert (Inc : (do it <- increment segs (At i j); distance_loop fuel segs l lt it (S acc)) = Done (acc + (n - m))%nat).
    { destruct (increment_ok segs P (At i j) m Hc HP HD (denotes_at_lt _ _ _ _ _ HD)) as (it1 & I1 & I2). rewrite I1. cbn [bind].
      rewrite (IH (S m) it1 (S acc)) by (lia || assumption). f_equal. lia. }
    destruct (Nat.ltb_spec 2 (length s)) as [H2|H2]; [|exact Inc].
    assert (Hq : exists q, nth_error s (length s - 1) = Some q) by (destruct (nth_error s (length s - 1)) eqn:E; [eauto|apply nth_error_None in E; lia]).
    destruct Hq as (q & Hq). unfold time_at. rewrite Hs, Hq. cbn [defined bind].
    destruct (match lt with Some t' => fst q <=? t' | None => true end) eqn:C1; [|exact Inc]. destruct (Nat.eqb_spec j 1) as [->|]; [|exact Inc]. cbn [andb].
    pose proof (denotes_forward segs P i 1 (length s - 2) m s Hc HP Hs ltac:(lia) HD) as HD'. replace (1 + (length s - 2))%nat with (length s - 1)%nat in HD' by lia.
    pose proof (LT i s q Hs Hq C1 _ HD'). rewrite (IH (m + (length s - 2))%nat (At i (length s - 1)) (acc + (length s - 2))%nat) by (lia || assumption). f_equal. lia. }
  rewrite (G _ m) ; [reflexivity| |assumption|assumption]. pose proof (denotes_bound _ _ _ _ Hl). lia.
Qed.

(** ** Lookup *)

(** The number of points of [P] that satisfy [f]: as [P] is sorted, the position of the first one that does not. *)
Definition count (f : point -> bool) (P : timeline) : nat := length (filter f P).

(** A predicate that holds up to some time. *)
Definition downward (f : point -> bool) : Prop := forall p q, f p = true -> fst q <= fst p -> f q = true.

Lemma count_position segs P f n q : points_of segs P -> downward f -> nth_error P n = Some q -> f q = false ->
  (forall r, In r (concat segs) -> fst r < fst q -> f r = true) -> count f P = n.
Proof.
  intros [HP1 HP2] Hf Hn Hq H. apply nth_error_split in Hn. destruct Hn as (P1 & P2 & -> & <-). unfold count. rewrite filter_app. cbn [filter]. rewrite Hq.
  apply sorted_app in HP1. destruct HP1 as (_ & HP1 & HP3). apply StronglySorted_inv in HP1. destruct HP1 as [_ HP1]. rewrite Forall_forall in HP1. unfold earlier in HP1.
  rewrite filter_true, filter_false, app_nil_r; [reflexivity| |].
  - intros r Hr. destruct (f r) eqn:E; [|reflexivity]. specialize (HP1 r Hr). rewrite (Hf r q E) in Hq by lia. discriminate.
  - intros r Hr. apply H; [apply HP2; apply in_or_app; left; assumption|]. apply HP3; [assumption|left; reflexivity].
Qed.

Lemma count_all segs P f : points_of segs P -> (forall r, In r (concat segs) -> f r = true) -> count f P = length P.
Proof. intros [_ HP] H. unfold count. rewrite filter_true; [reflexivity|]. intros r Hr. apply H, HP. assumption. Qed.
Lemma count_none segs P f : points_of segs P -> (forall r, In r (concat segs) -> f r = false) -> count f P = O.
Proof. intros [_ HP] H. unfold count. rewrite filter_false; [reflexivity|]. intros r Hr. apply H, HP. assumption. Qed.

(** lower_bound and upper_bound on a timeline. *)
Lemma lower_bound_split t s : exists a b, s = a ++ b /\ lower_bound t s = length a /\ Forall (fun q => (fst q <? t) = true) a /\ match b with [] => True | q :: _ => (fst q <? t) = false end.
Proof.
  induction s as [|p s IH]; [exists [], []; repeat split; constructor|]. cbn [lower_bound]. destruct (fst p <? t) eqn:E.
  - destruct IH as (a & b & -> & -> & H1 & H2). exists (p :: a), b. repeat split; [constructor; assumption|assumption].
  - exists [], (p :: s). repeat split; [constructor|assumption].
Qed.
Lemma upper_bound_split t s : exists a b, s = a ++ b /\ upper_bound t s = length a /\ Forall (fun q => (fst q <=? t) = true) a /\ match b with [] => True | q :: _ => (fst q <=? t) = false end.
Proof.
  induction s as [|p s IH]; [exists [], []; repeat split; constructor|]. cbn [upper_bound]. destruct (fst p <=? t) eqn:E.
  - destruct IH as (a & b & -> & -> & H1 & H2). exists (p :: a), b. repeat split; [constructor; assumption|assumption].
  - exists [], (p :: s). repeat split; [constructor|assumption].
Qed.

Lemma lookup_bound x P f g t : wf x -> points_of (segments x) P -> downward f ->
  (forall r, fst r < t -> f r = true) -> (forall r, t < fst r -> f r = false) ->
  (forall s, exists a b, s = a ++ b /\ g t s = (if (length a =? length s)%nat then None else Some (length a)) /\
     Forall (fun q => f q = true) a /\ match b with [] => True | q :: _ => f q = false end) ->
  exists it, lookup g (begin x) t x = Done it /\ denotes (segments x) P it (count f P).
Proof.
  intros W HP Hf Hlt Hgt Hg. pose proof W as [Hc Hm]. unfold lookup, FindSegment. rewrite Hm.
  destruct (find_segment 0 (segments x) t Hc) as [[-> H2]|(l1 & p & s & l2 & E & H1 & H2 & H3 & H4 & H5)].
  - destruct (begin_ok x P W HP) as (it & B1 & B2). exists it. split; [assumption|]. rewrite (count_none (segments x)); [assumption|assumption|].
    intros r Hr. rewrite Forall_forall in H2. apply Hgt, H2. assumption.
  - rewrite H1. unfold map_at. rewrite H2. cbn [Nat.add]. rewrite nth_error_mid. cbn [defined bind]. unfold segment_at.
    assert (Hi : nth_error (segments x) (length l1) = Some (p :: s)) by (rewrite E; apply nth_error_mid). rewrite Hi. cbn [defined bind].
    destruct (Hg (p :: s)) as (a & b & Eab & -> & Ha & Hb).
    pose proof Hc as Hc'. rewrite E in Hc'. pose proof (chained_before _ _ _ _ Hc') as Bef. rewrite Forall_forall in Bef, H4, Ha.
    destruct b as [|q b].
    + rewrite app_nil_r in Eab. rewrite Eab, Nat.eqb_refl. exists End. split; [reflexivity|]. cbn [denotes]. apply (count_all (segments x)); [assumption|].
      assert (El2 : l2 = []).
      { destruct l2 as [|s2 l2]; [reflexivity|]. exfalso. apply chained_app in Hc'. destruct Hc' as [_ Hc']. destruct (chained_not_nil _ _ _ _ Hc') as (h & s2' & -> & Hl).
        assert (In h a) by (rewrite <- Eab, <- Hl; apply in_last; discriminate). assert (Ht : t < fst h) by (apply H4; left; reflexivity). apply Hgt in Ht.
        specialize (Ha h H). congruence. }
      subst l2. intros r Hr. rewrite E, concat_app in Hr. cbn [concat] in Hr. rewrite app_nil_r in Hr. apply in_app_or in Hr. rewrite Eab in Hr. destruct Hr as [Hr|Hr]; [|apply Ha; assumption].
      apply (Hf p); [apply Ha; rewrite <- Eab; left; reflexivity|apply Bef; assumption].
    + replace (length a =? length (p :: s))%nat with false by (symmetry; apply Nat.eqb_neq; rewrite Eab, app_length; cbn [length]; lia).
      assert (Mk : make_iterator (segments x) (length l1) (length a) = At (length l1) (length a)) by (rewrite E, Eab; apply make_iterator_ok).
        rewrite Mk. eexists. split; [reflexivity|].
      assert (L : located (segments x) (length l1) (length a) (concat l1 ++ a) q (b ++ concat l2)) by (exists l1, l2, a, b; rewrite E, Eab; auto 6).
      destruct (denotes_exists (segments x) P (length l1) (length a) (p :: s) Hc HP) as (n & Hn); [rewrite E; apply nth_error_mid|rewrite Eab, app_length; cbn [length]; lia|].
      pose proof Hn as Hn'. apply (denotes_at _ _ _ _ _ Hc HP) in Hn'. destruct Hn' as (A' & q' & B' & L' & Nq).
      assert (q' = q).
      { pose proof (located_time _ _ _ _ _ _ L). pose proof (located_time _ _ _ _ _ _ L'). apply (same_time (segments x) _ _ Hc); [| |congruence].
        - rewrite (located_concat _ _ _ _ _ _ L'). apply in_or_app. right. left. reflexivity.
        - rewrite (located_concat _ _ _ _ _ _ L). apply in_or_app. right. left. reflexivity. }
      subst q'. rewrite (count_position (segments x) P f n q HP Hf Nq Hb); [assumption|].
      intros r Hr Hrq. pose proof (concat_weak _ Hc) as Wk. rewrite (located_concat _ _ _ _ _ _ L) in Hr, Wk. apply weak_app_inv in Wk. destruct Wk as (_ & Wk & _).
      apply in_app_or in Hr. destruct Hr as [Hr|[Hr|Hr]]; [|subst; lia|].
      * apply in_app_or in Hr. destruct Hr as [Hr|Hr]; [|apply Ha; assumption]. destruct a as [|p' a].
        -- cbn [app] in Eab. injection Eab as <- <-. apply Hlt. lia.
        -- injection Eab as <- _. apply (Hf p); [apply Ha; left; reflexivity|apply Bef; assumption].
      * apply StronglySorted_inv in Wk. destruct Wk as [_ Wk]. rewrite Forall_forall in Wk. specialize (Wk r Hr). unfold no_later in Wk. lia.
Qed.

Theorem lower_bound_ok x P t : wf x -> points_of (segments x) P ->
  exists it, trajectory_lower_bound t x = Done it /\ denotes (segments x) P it (count (fun q => fst q <? t) P).
Proof.
  intros W HP. apply lookup_bound; [assumption|assumption| | | |].
  - intros p q H Hle. apply Z.ltb_lt in H. apply Z.ltb_lt. lia.
  - intros r H. apply Z.ltb_lt. assumption.
  - intros r H. apply Z.ltb_ge. lia.
  - intros s. destruct (lower_bound_split t s) as (a & b & -> & E & H1 & H2). exists a, b. unfold segment_lower_bound. rewrite E. auto.
Qed.

Theorem upper_bound_ok x P t : wf x -> points_of (segments x) P ->
  exists it, trajectory_upper_bound t x = Done it /\ denotes (segments x) P it (count (fun q => fst q <=? t) P).
Proof.
  intros W HP. apply lookup_bound; [assumption|assumption| | | |].
  - intros p q H Hle. apply Z.leb_le in H. apply Z.leb_le. lia.
  - intros r H. apply Z.leb_le. lia.
  - intros r H. apply Z.leb_gt. assumption.
  - intros s. destruct (upper_bound_split t s) as (a & b & -> & E & H1 & H2). exists a, b. unfold segment_upper_bound. rewrite E. auto.
Qed.

(** A point at time [t] is at or after the segment found. *)
Theorem find_ok x P t : wf x -> points_of (segments x) P ->
  exists it, trajectory_find t x = Done it /\
    ((exists n p, nth_error P n = Some p /\ fst p = t /\ denotes (segments x) P it n) \/ ((forall p, In p P -> fst p <> t) /\ it = End)).
Proof.
  intros W HP. pose proof W as [Hc Hm]. unfold trajectory_find, lookup, FindSegment. rewrite Hm.
  destruct (find_segment 0 (segments x) t Hc) as [[-> H2]|(l1 & p & s & l2 & E & H1 & H2 & H3 & H4 & H5)].
  - exists End. split; [reflexivity|]. right. split; [|reflexivity]. intros p Hp. apply (proj2 HP) in Hp. rewrite Forall_forall in H2. specialize (H2 p Hp). lia.
  - rewrite H1. unfold map_at. rewrite H2. cbn [Nat.add]. rewrite nth_error_mid. cbn [defined bind]. unfold segment_at.
    assert (Hi : nth_error (segments x) (length l1) = Some (p :: s)) by (rewrite E; apply nth_error_mid). rewrite Hi. cbn [defined bind].
    unfold segment_find. destruct (lower_bound_split t (p :: s)) as (a & b & Eab & El & Ha & Hb).
    pose proof Hc as Hc'. rewrite E in Hc'. pose proof (chained_before _ _ _ _ Hc') as Bef. rewrite Forall_forall in Bef, H4, Ha. rewrite El.
    (* no point at [t] but in the segment found *)
    assert (Only : forall r, In r (concat (segments x)) -> fst r = t -> In r (p :: s)).
    { intros r Hr Ht. rewrite E, concat_app in Hr. cbn [concat] in Hr. apply in_app_or in Hr. destruct Hr as [Hr|Hr].
      - specialize (Bef r Hr). assert (r = p); [|subst; left; reflexivity]. apply (same_time (segments x) _ _ Hc); [| |lia]; rewrite E, concat_app; apply in_or_app; [left; assumption|right; left; reflexivity].
      - apply in_app_or in Hr. destruct Hr as [Hr|Hr]; [assumption|]. specialize (H4 r Hr). lia. }
    assert (Nowhere : (forall r, In r (p :: s) -> fst r <> t) -> forall r, In r P -> fst r <> t).
    { intros H r Hr Ht. apply (H r); [|assumption]. apply Only; [apply (proj2 HP)|]; assumption. }
    destruct b as [|q b].
    + rewrite app_nil_r in Eab. assert (N : nth_error (p :: s) (length a) = None) by (rewrite Eab; apply nth_error_None; lia). rewrite N.
      exists End. split; [reflexivity|]. right. split; [|reflexivity]. apply Nowhere. intros r Hr. rewrite Eab in Hr. specialize (Ha r Hr). apply Z.ltb_lt in Ha. lia.
    + assert (N : nth_error (p :: s) (length a) = Some q) by (rewrite Eab; apply nth_error_mid). rewrite N. apply Z.ltb_ge in Hb. destruct (Z.eqb_spec (fst q) t) as [Ht|Ht].
      * assert (Mk : make_iterator (segments x) (length l1) (length a) = At (length l1) (length a)) by (rewrite E, Eab; apply make_iterator_ok).
        rewrite Mk. eexists. split; [reflexivity|]. left.
        destruct (denotes_exists (segments x) P (length l1) (length a) (p :: s) Hc HP) as (n & Hn); [rewrite E; apply nth_error_mid|rewrite Eab, app_length; cbn [length]; lia|].
        pose proof Hn as (q' & K1 & K2). exists n, q'. split; [assumption|]. split; [|assumption].
        unfold time_at in K1. rewrite E, nth_error_mid, Eab, nth_error_mid in K1. congruence.
      * exists End. split; [reflexivity|]. right. split; [|reflexivity]. apply Nowhere. intros r Hr. rewrite Eab in Hr. apply in_app_or in Hr. destruct Hr as [Hr|[Hr|Hr]].
        -- specialize (Ha r Hr). apply Z.ltb_lt in Ha. lia.
        -- subst r. assumption.
        -- assert (S1 : sorted (a ++ q :: b)) by (rewrite <- Eab; apply (chained_sorted (segments x)); [assumption|]; rewrite E; apply in_or_app; right; left; reflexivity).
           apply sorted_app in S1. destruct S1 as (_ & S1 & _). apply StronglySorted_inv in S1. destruct S1 as [_ S1]. rewrite Forall_forall in S1. specialize (S1 r Hr). unfold earlier in S1. lia.
Qed.

Theorem t_min_ok x P : wf x -> points_of (segments x) P -> t_min x = Done (match P with [] => None | p :: _ => Some (fst p) end).
Proof.
  intros W HP. pose proof W as [Hc _]. unfold t_min. destruct (empty x) eqn:E.
  - apply (empty_spec _ W) in E. destruct P as [|p P]; [reflexivity|]. destruct HP as [_ HP]. pose proof (proj1 (HP p) (or_introl eq_refl)) as K. rewrite E in K. contradiction.
  - pose proof (next_nonempty_spec (segments x) 0) as N. destruct (next_nonempty (segments x) 0) as [i|].
    + destruct N as (l1 & p & s & l2 & Es & N1 & ->). cbn [Nat.add].
      assert (L : located (segments x) (length l1) 0 [] p (s ++ concat l2)) by (exists l1, l2, [], s; rewrite N1; auto 6).
      rewrite (located_time _ _ _ _ _ _ L). cbn [defined bind]. pose proof (nth_first _ _ _ _ _ Hc HP (located_concat _ _ _ _ _ _ L) (Forall_nil _)) as F.
      destruct P as [|p0 P]; [discriminate|]. cbn in F. congruence.
    + apply (empty_spec _ W) in N. congruence.
Qed.

Theorem t_max_ok x P : wf x -> points_of (segments x) P -> t_max x = Done (match rev P with [] => None | p :: _ => Some (fst p) end).
Proof.
  intros W HP. pose proof W as [Hc _]. unfold t_max. destruct (empty x) eqn:E.
  - apply (empty_spec _ W) in E. destruct P as [|p P]; [reflexivity|]. destruct HP as [_ HP]. pose proof (proj1 (HP p) (or_introl eq_refl)) as K. rewrite E in K. contradiction.
  - assert (Hne : concat (segments x) <> []) by (intros H; apply (empty_spec _ W) in H; congruence).
    destruct (exists_last Hne) as (A & p & EA). destruct (chained_last _ _ _ Hc EA) as (segs' & s & ->). rewrite rev_app_distr. cbn [rev app]. rewrite rev_app_distr. cbn [rev app].
    pose proof (nth_last _ P (length P - 1) A p [] Hc HP EA (Forall_nil _)) as N. assert (P <> []).
    { intros ->. destruct HP as [_ HP]. destruct (proj2 (HP p)). rewrite EA. apply in_or_app. right. left. reflexivity. }
    destruct (exists_last H) as (P' & p' & ->). rewrite rev_app_distr. cbn [rev app]. rewrite app_length in N. cbn [length] in N. rewrite Nat.add_sub, nth_error_mid in N.
    destruct N as [_ N]. rewrite Nat.add_1_r in N. specialize (N eq_refl). congruence.
Qed.
