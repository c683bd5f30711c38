(** The verification of the order conditions of the symplectic methods of the code. *)
From Coq Require Import Reals List Bool Arith ZArith QArith Qreals Lra Lia.
From Verif Require Import OneStep_Model Multistep_Proofs Multistep_Proofs2 OneStep_Proofs OneStep_Proofs2 Adaptive_Model Adaptive_Tables Adaptive_Proofs3
  Order_Proofs Order_Proofs2 Order_Proofs3 Symplectic_Tables Order_Proofs7.
Import ListNotations.
Open Scope R_scope.

Lemma psi_pos : forall t, 0 < psi t.
Proof.
  assert (P : forall t, 0 < INR (order t)) by (intros t; apply lt_0_INR; pose proof (order_pos t); lia).
  induction t as [|t IH|t IHt u IHu|t IHt u IHu]; cbn [psi]; [lra|exact IH| |].
  - apply Rmult_lt_0_compat; [exact IHt|]. apply Rdiv_lt_0_compat; [exact IHu|apply P].
  - apply Rmult_lt_0_compat; [exact IHt|]. apply Rdiv_lt_0_compat; [exact IHu|]. apply Rmult_lt_0_compat; [apply P|]. apply lt_0_INR. lia.
Qed.

(** * Arithmetic with errors *)
(** A pair [(x, e)] stands for the numbers within [e] of [x], in units of [2 ^ -64]. *)
Definition bits : Z := 64.
Definition unit : Z := (2 ^ bits)%Z.
Definition ball := (Z * Z)%type.
Definition badd (x y : ball) : ball := (fst x + fst y, snd x + snd y)%Z.
Definition bmul (x y : ball) : ball :=
  (Z.shiftr (fst x * fst y) bits, Z.shiftr ((Z.abs (fst x) + snd x) * snd y + Z.abs (fst y) * snd x) bits + 2)%Z.
Definition isb (r : R) (x : ball) : Prop := Rabs (r * IZR unit - IZR (fst x)) <= IZR (snd x).
Lemma unit_pos : 0 < IZR unit.
Proof. apply IZR_lt. reflexivity. Qed.
Lemma badd_spec : forall r s x y, isb r x -> isb s y -> isb (r + s) (badd x y).
Proof.
  intros r s [x e] [y f]. unfold isb, badd. cbn [fst snd]. intros X Y. rewrite !plus_IZR.
  replace ((r + s) * IZR unit - (IZR x + IZR y)) with ((r * IZR unit - IZR x) + (s * IZR unit - IZR y)) by ring. eapply Rle_trans; [apply Rabs_triang|lra].
Qed.
Lemma shiftr_spec : forall z, IZR z - IZR unit < IZR (Z.shiftr z bits) * IZR unit <= IZR z.
Proof.
  intros z. rewrite Z.shiftr_div_pow2 by (unfold bits; lia). fold unit. rewrite <- mult_IZR, <- minus_IZR.
  assert (P : (0 < unit)%Z) by reflexivity. pose proof (Z.div_mod z unit ltac:(lia)). pose proof (Z.mod_pos_bound z unit P).
  split; [apply IZR_lt|apply IZR_le]; lia.
Qed.
Lemma bmul_spec : forall r s x y, isb r x -> isb s y -> isb (r * s) (bmul x y).
Proof.
  intros r s [x e] [y f]. unfold isb, bmul. cbn [fst snd]. intros X Y. pose proof unit_pos as U.
  pose proof (shiftr_spec (x * y)) as [P1 P2]. pose proof (shiftr_spec ((Z.abs x + e) * f + Z.abs y * e)) as [Q1 _].
  set (p := Z.shiftr (x * y) bits) in *. set (q := Z.shiftr _ bits) in *. clearbody p q. rewrite plus_IZR.
  rewrite plus_IZR, !mult_IZR, plus_IZR, !abs_IZR in Q1. rewrite mult_IZR in P1, P2.
  apply (Rmult_le_reg_r (IZR unit)); [exact U|]. rewrite <- (Rabs_pos_eq (IZR unit)) at 2 by lra. rewrite <- Rabs_mult.
  set (u := IZR unit) in *. clearbody u. set (X' := r * u) in *. set (Y' := s * u) in *.
  replace ((r * s * u - IZR p) * u) with (X' * (Y' - IZR y) + (IZR y * (X' - IZR x) + (IZR x * IZR y - IZR p * u))) by (unfold X', Y'; ring).
  assert (A1 : Rabs (X' * (Y' - IZR y)) <= (Rabs (IZR x) + IZR e) * IZR f).
  { rewrite Rabs_mult. apply Rmult_le_compat; try apply Rabs_pos; [|exact Y]. replace X' with (IZR x + (X' - IZR x)) by ring. eapply Rle_trans; [apply Rabs_triang|lra]. }
  assert (A2 : Rabs (IZR y * (X' - IZR x)) <= Rabs (IZR y) * IZR e) by (rewrite Rabs_mult; apply Rmult_le_compat_l; [apply Rabs_pos|exact X]).
  assert (A3 : Rabs (IZR x * IZR y - IZR p * u) <= u) by (apply Rabs_le; lra).
  eapply Rle_trans; [apply Rabs_triang|]. eapply Rle_trans; [apply Rplus_le_compat_l, Rabs_triang|].
  change (IZR 2) with 2. lra.
Qed.
Lemma exact_spec : forall r z, r * IZR unit = IZR z -> isb r (z, 0%Z).
Proof. intros r z H. unfold isb. cbn [fst snd]. rewrite H, Rminus_diag_eq, Rabs_R0 by reflexivity. lra. Qed.
Definition zero : ball := (0, 0)%Z.
Lemma zero_spec : isb 0 zero.
Proof. apply exact_spec. ring. Qed.
Definition one : ball := (unit, 0)%Z.
Lemma one_spec : isb 1 one.
Proof. apply exact_spec. ring. Qed.

(** * The trees with their leaves first *)
Fixpoint chain (t : tree) : Prop := match t with Root => True | Leaf t => chain t | _ => False end.
Fixpoint canonical (t : tree) : Prop :=
  match t with Root => True | Leaf t => chain t | GraftV _ _ => False | GraftQ t u => canonical t /\ canonical u end.
Fixpoint leaf_in (t : tree) : tree := match t with GraftQ t u => GraftQ (leaf_in t) u | t => Leaf t end.
Fixpoint canon (t : tree) : tree :=
  match t with Root => Root | Leaf t => leaf_in (canon t) | GraftV t u => GraftV t u | GraftQ t u => GraftQ (canon t) (canon u) end.
Lemma leaf_in_canonical : forall t, canonical t -> canonical (leaf_in t).
Proof. induction t as [|t IH|t IHt u IHu|t IHt u IHu]; cbn; try tauto. Qed.
Lemma canon_canonical : forall t, allowed true false t -> canonical (canon t).
Proof.
  induction t as [|t IH|t IHt u IHu|t IHt u IHu]; cbn; intros H; [exact I|apply leaf_in_canonical, IH, H|destruct H; discriminate|].
  destruct H as (_ & H1 & H2). split; [apply IHt, H1|apply IHu, H2].
Qed.
Lemma leaf_in_same : forall t, order (leaf_in t) = order (Leaf t) /\ psi (leaf_in t) = psi t /\ forall c a aʹ i, phi c a aʹ (leaf_in t) i = phi c a aʹ (Leaf t) i.
Proof.
  induction t as [|t IH|t IHt u IHu|t IHt u IHu]; cbn [leaf_in]; try (repeat split; reflexivity).
  destruct IHt as (E1 & E2 & E3). cbn [order psi phi] in *. rewrite E1, E2. split; [lia|]. split; [reflexivity|]. intros c a aʹ i. rewrite E3. ring.
Qed.
Lemma canon_same : forall t, order (canon t) = order t /\ psi (canon t) = psi t /\ forall c a aʹ i, phi c a aʹ (canon t) i = phi c a aʹ t i.
Proof.
  induction t as [|t IH|t IHt u IHu|t IHt u IHu]; cbn [canon]; try (repeat split; reflexivity).
  - destruct IH as (E1 & E2 & E3). destruct (leaf_in_same (canon t)) as (F1 & F2 & F3). rewrite F1, F2. cbn [order psi]. rewrite E1, E2.
    split; [reflexivity|]. split; [reflexivity|]. intros c a aʹ i. rewrite F3. cbn [phi]. rewrite E3. reflexivity.
  - destruct IHt as (E1 & E2 & E3). destruct IHu as (F1 & F2 & F3). cbn [order psi]. rewrite E1, E2, F1, F2. split; [reflexivity|]. split; [reflexivity|].
    intros c a aʹ i. cbn [phi]. rewrite E3. f_equal. apply sum_to_ext. intros j _. rewrite F3. reflexivity.
Qed.

(** * The verification of a table *)
(** The order, the inverse of [psi] and the weights of a tree. *)
Record light := mkLight { l_o : Z; l_p : Z; l_phi : list ball }.
(** And the weights of the tree that is grafted, and the sums for the velocity and the position. *)
Record full := mkFull { f_l : light; f_q : list ball; f_v : ball; f_x : ball }.
Section Check.
  (** The coefficients, in units of [2 ^ -64]. *)
  Variables (A B C : list Z) (n : nat) (E : Z).
  Fixpoint drifts (A B : list Z) (ph : list ball) (p q : ball) : list ball * ball * ball :=
    match A, B, ph with
    | x :: A, y :: B, z :: ph =>
      let p' := badd p (bmul z (y, 0%Z)) in let '(l, v, w) := drifts A B ph p' (badd q (bmul p' (x, 0%Z))) in (q :: l, v, w)
    | _, _, _ => ([], p, q)
    end.
  Fixpoint bdot (B : list Z) (ph : list ball) (p : ball) : ball :=
    match B, ph with y :: B, z :: ph => bdot B ph (badd p (bmul z (y, 0%Z))) | _, _ => p end.
  Definition complete (x : light) : full := let '(l, v, w) := drifts A B (l_phi x) zero zero in mkFull x l v w.
  Fixpoint times (ph : list ball) (l : list ball) : list ball := match ph, l with x :: ph, y :: l => bmul x y :: times ph l | _, _ => [] end.
  Definition root_light : light := mkLight 1 1 (repeat one n).
  Definition leaf_light (x : light) : light := mkLight (l_o x + 1) (l_p x) (times (l_phi x) (map (fun z => (z, 0%Z)) C)).
  Definition graft_light (x y : full) : light :=
    mkLight (l_o (f_l x) + l_o (f_l y) + 1) (l_p (f_l x) * (l_p (f_l y) * (l_o (f_l y) * (l_o (f_l y) + 1)))) (times (l_phi (f_l x)) (f_q y)).
  Definition next_lights (k : nat) (L : list (list full)) : list light :=
    match k with
    | O => [root_light]
    | S k' =>
      match nth k' L [] with [] => [] | x :: _ => [leaf_light (f_l x)] end ++
      flat_map (fun i => flat_map (fun x => map (graft_light x) (nth (k' - 1 - i) L [])) (nth i L [])) (seq 0 k')
    end.
  Fixpoint fulls (k : nat) : list (list full) := match k with O => [] | S k => let L := fulls k in L ++ [map complete (next_lights k L)] end.
  Definition near (k : Z) (x : ball) : bool := ((Z.abs (fst x * k - unit) + snd x * k) * E <=? unit * k)%Z.
  Definition v_near (x : light) (s : ball) : bool := near (l_p x * l_o x) s.
  Definition q_near (x : light) (s : ball) : bool := near (l_p x * (l_o x * (l_o x + 1))) s.
  (** The conditions at the orders up to [k + 1] for the velocities and [k] for the positions. *)
  Definition check_lights (k : nat) : bool :=
    let L := fulls k in
    forallb (forallb (fun x => v_near (f_l x) (f_v x) && q_near (f_l x) (f_x x))) L
    && forallb (fun x => v_near x (bdot B (l_phi x) zero)) (next_lights k L).

  Variables (m : SRKN).
  Hypothesis HE : (0 < E)%Z.
  Hypothesis Sm : stages m = n.
  Hypothesis LA : length A = n.
  Hypothesis LB : length B = n.
  Hypothesis LC : length C = n.
  Hypothesis HA : forall i, (i < n)%nat -> a_ m i * IZR unit = IZR (nth i A 0%Z).
  Hypothesis HB : forall i, (i < n)%nat -> b_ m i * IZR unit = IZR (nth i B 0%Z).
  Hypothesis HC : forall i, (i < n)%nat -> c_ m i * IZR unit = IZR (nth i C 0%Z).
  Notation ph t := (phi (c_ m) (s_a m) (fun _ _ => 0) t).
  Definition isv (f : nat -> R) (l : list ball) : Prop := length l = n /\ forall i, (i < n)%nat -> isb (f i) (nth i l zero).
  Lemma times_spec : forall f g l k, isv f l -> isv g k -> isv (fun i => f i * g i) (times l k).
  Proof.
    unfold isv. intros f g l. revert f g. clear. generalize n as k0. intros k0 f g. revert k0 f g.
    induction l as [|x l IH]; intros k0 f g k [L1 H1] [L2 H2].
    - cbn in *. subst k0. split; [reflexivity|]. intros; lia.
    - destruct k as [|y k]; [cbn in *; lia|]. destruct k0 as [|k0]; [cbn in *; lia|].
      destruct (IH k0 (fun i => f (S i)) (fun i => g (S i)) k) as [L3 H3].
      + split; [cbn in L1; lia|]. intros i Hi. apply (H1 (S i)). lia.
      + split; [cbn in L2; lia|]. intros i Hi. apply (H2 (S i)). lia.
      + split; [cbn; lia|]. intros [|i] Hi; [apply bmul_spec; [apply (H1 0%nat)|apply (H2 0%nat)]; lia|]. cbn [times nth]. apply H3. lia.
  Qed.
  (** The sums after [i] kicks and drifts. *)
  Definition kick (f : nat -> R) (i : nat) : R := sum_to i (fun j => b_ m j * f j).
  Definition drift (f : nat -> R) (i : nat) : R := sum_to i (fun j => b_ m j * (c_ m i - c_ m j) * f j).
  Lemma kick_S : forall f i, kick f (S i) = kick f i + b_ m i * f i.
  Proof. intros f i. unfold kick. rewrite sum_to_last. reflexivity. Qed.
  Lemma drift_S : forall f i, (i < n)%nat -> drift f (S i) = drift f i + a_ m i * kick f (S i).
  Proof.
    intros f i Hi. unfold drift, kick. rewrite sum_to_last, c_S.
    rewrite <- sum_to_scal, !sum_to_last. rewrite (sum_to_ext i _ (fun j => b_ m j * (c_ m i - c_ m j) * f j + a_ m i * (b_ m j * f j))) by (intros; ring).
    rewrite sum_to_add. ring.
  Qed.
  Lemma drifts_spec : forall f l k, (k <= n)%nat -> length l = (n - k)%nat -> (forall i, (k + i < n)%nat -> isb (f (k + i)%nat) (nth i l zero)) ->
    forall p q, isb (kick f k) p -> isb (drift f k) q ->
    let '(d, v, w) := drifts (skipn k A) (skipn k B) l p q in
    length d = (n - k)%nat /\ (forall i, (k + i < n)%nat -> isb (drift f (k + i)%nat) (nth i d zero)) /\ isb (kick f n) v /\ isb (drift f n) w.
  Proof.
    intros f l. induction l as [|z l IH]; intros k Hk Ll Hl p q Hp Hq.
    - cbn in Ll. assert (k = n) by lia. subst k. rewrite skipn_all2 by lia. cbn. split; [lia|]. split; [intros; lia|]. split; assumption.
    - cbn in Ll. assert (K : (k < n)%nat) by lia.
      assert (SA : skipn k A = nth k A 0%Z :: skipn (S k) A) by (clear - LA K; subst n; revert k K; induction A as [|x A' IH]; intros [|k] K; cbn in *; try lia; [reflexivity|]; rewrite IH by lia; reflexivity).
      assert (SB : skipn k B = nth k B 0%Z :: skipn (S k) B) by (clear - LB K; subst n; revert k K; induction B as [|x B' IH]; intros [|k] K; cbn in *; try lia; [reflexivity|]; rewrite IH by lia; reflexivity).
      rewrite SA, SB. cbn [drifts].
      assert (P' : isb (kick f (S k)) (badd p (bmul z (nth k B 0, 0)%Z))).
      { rewrite kick_S. apply badd_spec; [exact Hp|]. rewrite Rmult_comm. apply bmul_spec; [|apply exact_spec, HB, K]. specialize (Hl 0%nat). rewrite Nat.add_0_r in Hl. apply Hl, K. }
      assert (Q' : isb (drift f (S k)) (badd q (bmul (badd p (bmul z (nth k B 0, 0)%Z)) (nth k A 0, 0)%Z))).
      { rewrite drift_S by exact K. apply badd_spec; [exact Hq|]. rewrite Rmult_comm. apply bmul_spec; [exact P'|apply exact_spec, HA, K]. }
      specialize (IH (S k) K ltac:(lia)). destruct (drifts _ _ l _ _) as [[d v] w] eqn:D in |- *.
      specialize (IH ltac:(intros i Hi; replace (S k + i)%nat with (k + S i)%nat by lia; apply (Hl (S i)); lia) _ _ P' Q').
      rewrite D in IH. destruct IH as (I1 & I2 & I3 & I4). split; [cbn; lia|]. split; [|split; assumption].
      intros [|i] Hi; [rewrite Nat.add_0_r; exact Hq|]. cbn [nth]. replace (k + S i)%nat with (S k + i)%nat by lia. apply I2. lia.
  Qed.
  Lemma bdot_spec : forall f l k, (k <= n)%nat -> length l = (n - k)%nat -> (forall i, (k + i < n)%nat -> isb (f (k + i)%nat) (nth i l zero)) ->
    forall p, isb (kick f k) p -> isb (kick f n) (bdot (skipn k B) l p).
  Proof.
    intros f l. induction l as [|z l IH]; intros k Hk Ll Hl p Hp.
    - cbn in Ll. assert (k = n) by lia. subst k. rewrite skipn_all2 by lia. exact Hp.
    - cbn in Ll. assert (K : (k < n)%nat) by lia.
      assert (SB : skipn k B = nth k B 0%Z :: skipn (S k) B) by (clear - LB K; subst n; revert k K; induction B as [|x B' IH]; intros [|k] K; cbn in *; try lia; [reflexivity|]; rewrite IH by lia; reflexivity).
      rewrite SB. cbn [bdot]. apply (IH (S k) K ltac:(lia)).
      + intros i Hi. replace (S k + i)%nat with (k + S i)%nat by lia. apply (Hl (S i)). lia.
      + rewrite kick_S. apply badd_spec; [exact Hp|]. rewrite Rmult_comm. apply bmul_spec; [|apply exact_spec, HB, K]. specialize (Hl 0%nat). rewrite Nat.add_0_r in Hl. apply Hl, K.
  Qed.
  Definition light_of (t : tree) (x : light) : Prop := l_o x = Z.of_nat (order t) /\ IZR (l_p x) * psi t = 1 /\ isv (ph t) (l_phi x).
  Definition full_of (t : tree) (x : full) : Prop :=
    light_of t (f_l x) /\ isv (drift (ph t)) (f_q x) /\ isb (kick (ph t) n) (f_v x) /\ isb (drift (ph t) n) (f_x x).
  Lemma complete_spec : forall t x, light_of t x -> full_of t (complete x).
  Proof.
    intros t x H. destruct H as (H1 & H2 & L & H3). unfold complete. pose proof (drifts_spec (ph t) (l_phi x) 0 ltac:(lia) ltac:(lia) H3 zero zero zero_spec zero_spec) as D.
    cbn [skipn] in D. destruct (drifts A B (l_phi x) zero zero) as [[l v] w]. destruct D as (D1 & D2 & D3 & D4). unfold full_of. cbn [f_l f_q f_v f_x].
    split; [split; [exact H1|split; [exact H2|split; assumption]]|]. split; [split; [lia|exact D2]|]. split; assumption.
  Qed.
  Lemma root_light_of : light_of Root root_light.
  Proof.
    split; [reflexivity|]. split; [cbn; ring|]. split; [apply repeat_length|]. intros i Hi. cbn [phi root_light l_phi]. rewrite (nth_indep _ zero one) by (rewrite repeat_length; exact Hi).
    rewrite nth_repeat. apply one_spec.
  Qed.
  Lemma leaf_light_of : forall t x, light_of t x -> light_of (Leaf t) (leaf_light x).
  Proof.
    intros t x (H1 & H2 & H3). split; [cbn [order leaf_light l_o]; lia|]. split; [exact H2|]. cbn [phi leaf_light l_phi].
    apply (times_spec (ph t) (c_ m)); [exact H3|]. split; [rewrite map_length; exact LC|]. intros i Hi.
    assert (N : nth i (map (fun z => (z, 0%Z)) C) zero = (nth i C 0%Z, 0%Z)) by apply (map_nth (fun z : Z => (z, 0%Z)) C 0%Z i). pose proof (exact_spec _ _ (HC i Hi)) as X. rewrite <- N in X. exact X.
  Qed.
  Lemma graft_light_of : forall t u x y, full_of t x -> full_of u y -> light_of (GraftQ t u) (graft_light x y).
  Proof.
    intros t u x y ((E1 & P & H) & _) ((E' & P' & _) & V & _). destruct (order_IZR u) as [O1 O2].
    assert (O3 : INR (order u) + 1 <> 0) by (pose proof (pos_INR (order u)); lra). split; [cbn [order graft_light l_o]; lia|]. split.
    - cbn [psi graft_light l_p]. rewrite E', !mult_IZR, plus_IZR, O1, plus_INR. cbn [INR].
      transitivity ((IZR (l_p (f_l x)) * psi t) * (IZR (l_p (f_l y)) * psi u)); [field; auto|rewrite P, P'; ring].
    - cbn [phi graft_light l_phi]. apply (times_spec (ph t) (drift (ph u))); assumption.
  Qed.
  Lemma fulls_length : forall k, length (fulls k) = k.
  Proof. induction k as [|k IH]; [reflexivity|]. cbn. rewrite app_length, IH. cbn. lia. Qed.
  Lemma fulls_nth : forall k j, (j < k)%nat -> nth j (fulls k) [] = map complete (next_lights j (fulls j)).
  Proof.
    induction k as [|k IH]; intros j H; [lia|]. cbn [fulls]. destruct (Nat.eq_dec j k) as [->|].
    - rewrite app_nth2 by (rewrite fulls_length; lia). rewrite fulls_length, Nat.sub_diag. reflexivity.
    - rewrite app_nth1 by (rewrite fulls_length; lia). apply IH. lia.
  Qed.
  Lemma chain_light : forall t, chain t -> exists x l, next_lights (order t - 1) (fulls (order t - 1)) = x :: l /\ light_of t x.
  Proof.
    induction t as [|t IH|t IHt u IHu|t IHt u IHu]; intros H; try (exfalso; exact H).
    - exists root_light, []. split; [reflexivity|apply root_light_of].
    - cbn [order]. pose proof (order_pos t). destruct (IH H) as (x & l & N & X). replace (order t + 1 - 1)%nat with (S (order t - 1)) by lia. cbn [next_lights].
      rewrite fulls_nth by lia. rewrite N. cbn [map]. eexists (leaf_light (f_l (complete x))), _. split; [reflexivity|]. apply leaf_light_of. apply complete_spec, X.
  Qed.
  Lemma canonical_light : forall t, canonical t -> exists x, In x (next_lights (order t - 1) (fulls (order t - 1))) /\ light_of t x.
  Proof.
    assert (Ch : forall t, chain t -> exists x, In x (next_lights (order t - 1) (fulls (order t - 1))) /\ light_of t x).
    { intros t H. destruct (chain_light t H) as (x & l & N & X). exists x. rewrite N. split; [left; reflexivity|exact X]. }
    induction t as [|t IH|t IHt u IHu|t IHt u IHu]; cbn [canonical]; intros H; [apply Ch; exact I|apply Ch; exact H|contradiction|].
    destruct H as [H1 H2]. destruct (IHt H1) as (x & X1 & X2). destruct (IHu H2) as (y & Y1 & Y2). cbn [order]. pose proof (order_pos t). pose proof (order_pos u).
    exists (graft_light (complete x) (complete y)). split; [|apply graft_light_of; apply complete_spec; assumption].
    replace (order t + order u + 1 - 1)%nat with (S (order t + order u - 1)) by lia. cbn [next_lights]. apply in_or_app. right.
    apply in_flat_map. exists (order t - 1)%nat. split; [apply in_seq; lia|]. apply in_flat_map. exists (complete x). split; [rewrite fulls_nth by lia; apply in_map, X1|].
    apply in_map. replace (order t + order u - 1 - 1 - (order t - 1))%nat with (order u - 1)%nat by lia. rewrite fulls_nth by lia. apply in_map, Y1.
  Qed.
  Lemma near_spec : forall k r x z, 0 < IZR k -> isb r x -> IZR k * z = 1 -> near k x = true -> Rabs (r - z) <= / IZR E.
  Proof.
    intros k r [x e] z Hk Hx Hz H. apply Z.leb_le, IZR_le in H. unfold isb in Hx. cbn [fst snd] in *. rewrite !mult_IZR, plus_IZR, mult_IZR, abs_IZR, minus_IZR, mult_IZR in H.
    assert (PE : 0 < IZR E) by (apply IZR_lt; exact HE). pose proof unit_pos as U. set (u := IZR unit) in *. clearbody u.
    assert (W : Rabs (r - z) * (u * IZR k) <= Rabs (IZR x * IZR k - u) + IZR e * IZR k).
    { rewrite <- (Rabs_pos_eq (u * IZR k)) by (apply Rmult_le_pos; lra). rewrite <- Rabs_mult.
      replace ((r - z) * (u * IZR k)) with ((IZR x * IZR k - u) + (r * u - IZR x) * IZR k) by (replace u with (u * (IZR k * z)) at 1 by (rewrite Hz; ring); ring).
      eapply Rle_trans; [apply Rabs_triang|]. apply Rplus_le_compat_l. rewrite Rabs_mult, (Rabs_pos_eq (IZR k)) by lra. apply Rmult_le_compat_r; [lra|exact Hx]. }
    apply (Rmult_le_reg_r (IZR E * (u * IZR k))); [apply Rmult_lt_0_compat; [exact PE|apply Rmult_lt_0_compat; assumption]|].
    replace (/ IZR E * (IZR E * (u * IZR k))) with (u * IZR k) by (field; lra). apply (Rmult_le_compat_r (IZR E)) in W; lra.
  Qed.
  Lemma light_pos : forall t x, light_of t x -> 0 < IZR (l_p x) /\ IZR (l_o x) = INR (order t) /\ 0 < INR (order t) /\ IZR (l_o x + 1) = INR (order t + 1) /\ 0 < INR (order t + 1).
  Proof.
    intros t x (H1 & H2 & _). destruct (order_IZR t) as [O1 O2]. split; [apply (Rmult_lt_reg_r (psi t)); [apply psi_pos|rewrite H2; lra]|]. rewrite H1.
    split; [exact O1|]. split; [pose proof (pos_INR (order t)); lra|]. split; [rewrite plus_IZR, O1, plus_INR; reflexivity|apply lt_0_INR; lia].
  Qed.
  Lemma v_near_spec : forall t x s, light_of t x -> isb (kick (ph t) n) s -> v_near x s = true ->
    Rabs (sum_to n (fun i => b_ m i * ph t i) - psi t / INR (order t)) <= / IZR E.
  Proof.
    intros t x s L K H. destruct (light_pos t x L) as (P1 & P2 & P3 & _). apply (near_spec (l_p x * l_o x)) with (2 := K) (4 := H).
    - rewrite mult_IZR, P2. apply Rmult_lt_0_compat; assumption.
    - rewrite mult_IZR, P2. destruct L as (_ & L & _). rewrite <- L. field. lra.
  Qed.
  Lemma q_near_spec : forall t x s, light_of t x -> isb (drift (ph t) n) s -> q_near x s = true ->
    Rabs (sum_to n (fun i => s_b m i * ph t i) - psi t / (INR (order t) * INR (order t + 1))) <= / IZR E.
  Proof.
    intros t x s L K H. destruct (light_pos t x L) as (P1 & P2 & P3 & P4 & P5). unfold s_b. rewrite Sm.
    apply (near_spec (l_p x * (l_o x * (l_o x + 1)))) with (2 := K) (4 := H).
    - rewrite !mult_IZR, P2, P4. apply Rmult_lt_0_compat; [exact P1|apply Rmult_lt_0_compat; assumption].
    - rewrite !mult_IZR, P2, P4. destruct L as (_ & L & _). rewrite <- L. field. lra.
  Qed.
  Lemma full_checked : forall k t, check_lights k = true -> canonical t -> (order t <= k)%nat ->
    Rabs (sum_to n (fun i => b_ m i * ph t i) - psi t / INR (order t)) <= / IZR E /\
    Rabs (sum_to n (fun i => s_b m i * ph t i) - psi t / (INR (order t) * INR (order t + 1))) <= / IZR E.
  Proof.
    intros k t Ck Ht Ho. apply andb_prop in Ck. destruct Ck as [Ck _]. rewrite forallb_forall in Ck. pose proof (order_pos t).
    assert (I : In (nth (order t - 1) (fulls k) []) (fulls k)) by (apply nth_In; rewrite fulls_length; lia). specialize (Ck _ I). rewrite forallb_forall in Ck.
    destruct (canonical_light t Ht) as (x & X & L). specialize (Ck (complete x)). destruct (complete_spec t x L) as (L' & _ & V & W).
    assert (Y : In (complete x) (nth (order t - 1) (fulls k) [])) by (rewrite fulls_nth by lia; apply in_map, X). specialize (Ck Y). apply andb_prop in Ck.
    destruct Ck as [C1 C2]. split; [apply (v_near_spec t _ _ L' V C1)|apply (q_near_spec t _ _ L' W C2)].
  Qed.
  Lemma top_checked : forall k t, check_lights k = true -> canonical t -> order t = S k -> Rabs (sum_to n (fun i => b_ m i * ph t i) - psi t / INR (order t)) <= / IZR E.
  Proof.
    intros k t Ck Ht Ho. apply andb_prop in Ck. destruct Ck as [_ Ck]. rewrite forallb_forall in Ck.
    destruct (canonical_light t Ht) as (x & X & L). rewrite Ho in X. replace (S k - 1)%nat with k in X by lia. specialize (Ck x X).
    apply (v_near_spec t x (bdot B (l_phi x) zero) L); [|exact Ck]. destruct L as (_ & _ & L1 & L2). apply (bdot_spec (ph t) (l_phi x) 0 ltac:(lia) ltac:(lia) L2 zero). apply zero_spec.
  Qed.
  Lemma check_lights_spec : forall k, check_lights k = true ->
    position_conditions_within (/ IZR E) true false n (c_ m) (s_a m) (fun _ _ => 0) (s_b m) (S k) /\
    velocity_conditions_within (/ IZR E) true false n (c_ m) (s_a m) (fun _ _ => 0) (b_ m) (S k).
  Proof.
    intros k Ck. split; intros t L Ho; destruct (canon_same t) as (E1 & E2 & E3); pose proof (canon_canonical t L) as Ct.
    - destruct (full_checked k (canon t) Ck Ct ltac:(lia)) as [_ H]. rewrite E1, E2 in H.
      rewrite (sum_to_ext n _ (fun i => s_b m i * ph t i)) in H by (intros i _; rewrite E3; reflexivity). exact H.
    - assert (H : Rabs (sum_to n (fun i => b_ m i * ph (canon t) i) - psi (canon t) / INR (order (canon t))) <= / IZR E).
      { destruct (Nat.eq_dec (order (canon t)) (S k)) as [O|O]; [apply (top_checked k); assumption|]. apply (full_checked k (canon t) Ck Ct ltac:(lia)). }
      rewrite E1, E2 in H. rewrite (sum_to_ext n _ (fun i => b_ m i * ph t i)) in H by (intros i _; rewrite E3; reflexivity). exact H.
  Qed.
End Check.

Fixpoint prefix (x : Z) (l : list Z) : list Z := match l with [] => [] | y :: l => x :: prefix (x + y) l end.
Definition srkn_within (E : Z) (a b : list Q) (p : nat) : bool :=
  let A := map (scale unit) a in let B := map (scale unit) b in
  (0 <? E)%Z && forallb (divides unit) a && forallb (divides unit) b && Nat.eqb (length b) (length a)
  && (Z.abs (fold_left Z.add A 0%Z - unit) * E <=? unit)%Z
  && match p with O => false | S k => check_lights A B (prefix 0 A) (length a) E k end.
Lemma prefix_length : forall l x, length (prefix x l) = length l.
Proof. induction l as [|y l IH]; intros x; [reflexivity|]. cbn. rewrite IH. reflexivity. Qed.
Lemma prefix_sums : forall D l x y i, (0 < D)%Z -> forallb (divides D) l = true -> x * IZR D = IZR y ->
  ((i < length l)%nat -> fold_left Rplus (firstn i (reals l)) x * IZR D = IZR (nth i (prefix y (map (scale D) l)) 0%Z)) /\
  fold_left Rplus (reals l) x * IZR D = IZR (fold_left Z.add (map (scale D) l) y).
Proof.
  induction l as [|z l IH]; intros x y i HD H X; [cbn; split; [lia|exact X]|]. cbn in H. apply andb_prop in H. destruct H as [H1 H2].
  assert (Y : (x + Q2R z) * IZR D = IZR (y + scale D z)) by (rewrite plus_IZR, Rmult_plus_distr_r, X, (scale_spec D z HD H1); reflexivity).
  split.
  - intros L. destruct i as [|i]; [exact X|]. cbn in L |- *. apply (IH _ _ i HD H2 Y). lia.
  - cbn. apply (IH _ _ 0%nat HD H2 Y).
Qed.
Lemma srkn_within_spec : forall E comp rev a b p, srkn_within E a b p = true -> srkn_conditions_within (/ IZR E) (mkSRKN comp rev (reals a) (reals b)) p.
Proof.
  intros E comp rev a b p H. unfold srkn_within in H. cbv zeta in H.
  repeat match goal with H : _ && _ = true |- _ => apply andb_prop in H; destruct H end.
  repeat match goal with H : (0 <? _)%Z = true |- _ => apply Z.ltb_lt in H end.
  repeat match goal with H : Nat.eqb _ _ = true |- _ => apply Nat.eqb_eq in H end.
  repeat match goal with H : (_ <=? _)%Z = true |- _ => apply Z.leb_le in H end.
  rename H0 into Ck, H1 into HE, H2 into HL, H3 into DB, H4 into DA, H into PE. destruct p as [|k]; [discriminate|].
  set (m := mkSRKN comp rev (reals a) (reals b)). assert (PU : (0 < unit)%Z) by reflexivity.
  assert (Sn : stages m = length a) by (unfold stages, m; cbn [srkn_a]; unfold reals; apply map_length).
  assert (Ce : c_ m (length a) * IZR unit = IZR (fold_left Z.add (map (scale unit) a) 0%Z)).
  { unfold c_. cbn [m srkn_a]. rewrite firstn_all2 by (unfold reals; rewrite map_length; lia). apply (prefix_sums unit a 0 0%Z 0%nat PU DA ltac:(ring)). }
  unfold srkn_conditions_within. rewrite Sn. split.
  - apply IZR_le in HE. rewrite mult_IZR, abs_IZR, minus_IZR, <- Ce in HE. pose proof unit_pos as U. set (u := IZR unit) in *. clearbody u.
    replace (c_ m (length a) * u - u) with ((c_ m (length a) - 1) * u) in HE by ring. rewrite Rabs_mult, (Rabs_pos_eq u) in HE by lra.
    assert (PE' : 0 < IZR E) by (apply IZR_lt; exact PE). apply (Rmult_le_reg_r (IZR E * u)); [apply Rmult_lt_0_compat; assumption|].
    replace (/ IZR E * (IZR E * u)) with u by (field; lra). lra.
  - apply (check_lights_spec (map (scale unit) a) (map (scale unit) b) (prefix 0 (map (scale unit) a)) (length a) E m PE Sn).
    + apply map_length.
    + rewrite map_length. exact HL.
    + rewrite prefix_length. apply map_length.
    + intros i _. apply scale_nth; assumption.
    + intros i _. apply scale_nth; assumption.
    + intros i Hi. apply (prefix_sums unit a 0 0%Z i PU DA ltac:(ring)). exact Hi.
    + exact Ck.
Qed.

(** * The methods of the code *)
Definition QShift (a : list Q) : list Q := map (fun i => nth ((i + length a - 1) mod length a) a 0%Q) (seq 0 (length a)).
Definition as_table (t : SPRKTable) (c : Composition) : SRKNTable :=
  match c with
  | ABA => mkSRKNTable (p_order t) ABA (p_reversible t) (p_b t) (QShift (p_a t))
  | _ => mkSRKNTable (p_order t) c (p_reversible t) (p_a t) (p_b t)
  end.
Definition compositions (t : SPRKTable) : list Composition := if p_fsal t then [ABA; BAB] else [BA].
Lemma double_of_0 : double_of 0 = 0%Q.
Proof. reflexivity. Qed.
Lemma doubles_nth : forall l i, nth i (doubles l) 0 = Q2R (double_of (nth i l 0%Q)).
Proof. intros l i. unfold doubles. rewrite nth_reals. f_equal. rewrite <- double_of_0 at 1. apply map_nth. Qed.
Lemma doubles_length : forall l, length (doubles l) = length l.
Proof. intros l. unfold doubles, reals. rewrite !map_length. reflexivity. Qed.
Lemma Shift_doubles : forall l, Shift (doubles l) = doubles (QShift l).
Proof.
  intros l. unfold Shift, QShift. rewrite doubles_length. unfold doubles at 2, reals. rewrite !map_map. apply map_ext. intros i. apply doubles_nth.
Qed.
Lemma as_srkn_table : forall t c m, AsSRKN (sprk_of t) c = Some m -> In c (compositions t) /\ m = srkn_of (as_table t c).
Proof.
  intros t c m. unfold AsSRKN, compositions, sprk_of. cbn [sprk_first_same_as_last sprk_time_reversible sprk_a sprk_b].
  destruct (p_fsal t); destruct c; intros H; try discriminate; inversion H; (split; [cbn; auto|]); unfold srkn_of; cbn; rewrite ?Shift_doubles; reflexivity.
Qed.
Definition srkn_table_checks (comp : Composition) (rev : bool) (la lb : list Q) : bool :=
  let n := length la in let a i := nth i la 0%Q in let b i := nth i lb 0%Q in
  (match comp with BA => true | ABA => Qeq_bool 0 (b 0%nat) | BAB => Qeq_bool 0 (a (n - 1)%nat) end)
  && (if rev then
        match comp with
        | ABA => all_below n (fun i => Qeq_bool (a i) (a (n - 1 - i)%nat)) && all_below (n - 1) (fun i => Qeq_bool (b (i + 1)%nat) (b (n - 1 - i)%nat))
        | BAB => all_below (n - 1) (fun i => Qeq_bool (a i) (a (n - 2 - i)%nat)) && all_below n (fun i => Qeq_bool (b i) (b (n - 1 - i)%nat))
        | BA => false
        end
      else true).
Lemma srkn_of_checks : forall t, srkn_checks (srkn_of t) = srkn_table_checks (y_composition t) (y_reversible t) (map double_of (y_a t)) (map double_of (y_b t)).
Proof.
  intros t. unfold srkn_checks, srkn_table_checks, stages, a_, b_. cbn [srkn_of srkn_a srkn_b composition time_reversible]. unfold doubles.
  assert (L : forall l, length (reals l) = length l) by (intros; apply map_length). rewrite L, !nth_reals, !Reqb_0.
  f_equal. destruct (y_reversible t); [|reflexivity]. destruct (y_composition t); try reflexivity; f_equal; apply all_below_eq; intros i; rewrite !nth_reals; apply Q2R_eqb.
Qed.
Definition table_ok (E : Z) (t : SRKNTable) : bool :=
  let a := map double_of (y_a t) in let b := map double_of (y_b t) in
  srkn_table_checks (y_composition t) (y_reversible t) a b && Nat.ltb 0 (length a) && srkn_within E a b (y_order t).
Lemma table_ok_spec : forall E t, table_ok E t = true ->
  srkn_checks (srkn_of t) = true /\ (0 < stages (srkn_of t))%nat /\ srkn_conditions_within (/ IZR E) (srkn_of t) (y_order t).
Proof.
  intros E t H. unfold table_ok in H. apply andb_prop in H. destruct H as [H H3]. apply andb_prop in H. destruct H as [H1 H2]. split; [|split].
  - rewrite srkn_of_checks. exact H1.
  - unfold stages. cbn [srkn_of srkn_a]. unfold doubles, reals. rewrite map_length. apply Nat.ltb_lt, H2.
  - apply srkn_within_spec, H3.
Qed.
Definition partitioned_ok (E : Z) (t : SPRKTable) : bool := forallb (fun c => table_ok E (as_table t c)) (compositions t).
Lemma partitioned_ok_spec : forall E t c m, partitioned_ok E t = true -> AsSRKN (sprk_of t) c = Some m ->
  srkn_checks m = true /\ (0 < stages m)%nat /\ srkn_conditions_within (/ IZR E) m (p_order t).
Proof.
  intros E t c m H Hm. destruct (as_srkn_table t c m Hm) as [I ->]. unfold partitioned_ok in H. rewrite forallb_forall in H.
  pose proof (table_ok_spec E _ (H c I)) as S. destruct c; exact S.
Qed.
Lemma nystrom_tables_ok : forallb (table_ok (10 ^ 14)) nystrom_tables = true.
Proof. vm_compute. reflexivity. Qed.
(** The methods of the code other than those of order 8 of Yoshida. *)
Lemma partitioned_tables_ok : forallb (partitioned_ok (10 ^ 14)) (firstn 18 partitioned_tables) = true.
Proof. vm_compute. reflexivity. Qed.
Definition yoshida_tables : list (Z * SPRKTable) :=
  [((10 ^ 11)%Z, Yoshida1990Order8A); ((10 ^ 13)%Z, Yoshida1990Order8B); ((10 ^ 12)%Z, Yoshida1990Order8C); ((10 ^ 12)%Z, Yoshida1990Order8D); ((10 ^ 13)%Z, Yoshida1990Order8E)].
Lemma yoshida_tables_ok : forallb (fun p => partitioned_ok (fst p) (snd p)) yoshida_tables = true.
Proof. vm_compute. reflexivity. Qed.
