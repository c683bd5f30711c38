(** The verification of the order conditions of a table, for all the trees. *)
From Coq Require Import Reals List Bool Arith ZArith QArith Qreals Lra Lia.
From Verif Require Import OneStep_Model Multistep_Proofs Multistep_Proofs2 Adaptive_Model Adaptive_Tables Order_Proofs Order_Proofs2 Adaptive_Proofs3.
Import ListNotations.
Open Scope R_scope.

(** * Enumeration *)
Fixpoint zdot (l m : list Z) : Z := match l, m with x :: l, y :: m => (x * y + zdot l m)%Z | _, _ => 0%Z end.
Fixpoint zmul (l m : list Z) : list Z := match l, m with x :: l, y :: m => (x * y)%Z :: zmul l m | _, _ => [] end.
(** What is computed for a tree: its order, the inverse of [psi], a denominator and the numerators of its weights, and of
    their products by the matrices. *)
Record node := mkNode { n_o : Z; n_p : Z; n_d : Z; n_phi : list Z; n_q : list Z; n_v : list Z }.
Section Enumeration.
  Variables (on_q on_v : bool) (n : nat) (D : Z) (C : list Z) (A Aʹ : list (list Z)).
  Definition make (o p d : Z) (ph : list Z) : node := mkNode o p d ph (map (fun row => zdot row ph) A) (map (fun row => zdot row ph) Aʹ).
  Definition root_node : node := make 1 1 1 (repeat 1%Z n).
  Definition leaf_node (x : node) : node := make (n_o x + 1) (n_p x) (n_d x * D) (zmul (n_phi x) C).
  Definition v_node (x y : node) : node := make (n_o x + n_o y) (n_p x * (n_p y * n_o y)) (n_d x * (n_d y * D)) (zmul (n_phi x) (n_v y)).
  Definition q_node (x y : node) : node :=
    make (n_o x + n_o y + 1) (n_p x * (n_p y * (n_o y * (n_o y + 1)))) (n_d x * (n_d y * D)) (zmul (n_phi x) (n_q y)).
  Definition products (g : node -> node -> node) (l m : list node) : list node := flat_map (fun x => map (g x) m) l.
  (** The nodes of order [k + 1], from those of smaller orders. *)
  Definition next_level (k : nat) (L : list (list node)) : list node :=
    match k with
    | O => [root_node]
    | S k' =>
      map leaf_node (nth k' L []) ++
      (if on_v then flat_map (fun i => products v_node (nth i L []) (nth (k' - i) L [])) (seq 0 k) else []) ++
      (if on_q then flat_map (fun i => products q_node (nth i L []) (nth (k' - 1 - i) L [])) (seq 0 k') else [])
    end.
  Fixpoint levels (k : nat) : list (list node) := match k with O => [] | S k => let L := levels k in L ++ [next_level k L] end.
  Definition v_holds (Bʹ : list Z) (x : node) : bool := (zdot Bʹ (n_phi x) * (n_p x * n_o x) =? n_d x * D)%Z.
  Definition q_holds (B : list Z) (x : node) : bool := (zdot B (n_phi x) * (n_p x * (n_o x * (n_o x + 1))) =? n_d x * D)%Z.
  Definition check_levels (holds : node -> bool) (k : nat) : bool := forallb (forallb holds) (levels k).

  Variables (c : nat -> R) (a aʹ : nat -> nat -> R).
  Hypothesis HD : (0 < D)%Z.
  Hypothesis HC : forall i, c i * IZR D = IZR (nth i C 0%Z).
  Hypothesis HA : forall i j, a i j * IZR D = IZR (nth j (nth i A []) 0%Z).
  Hypothesis HAʹ : forall i j, aʹ i j * IZR D = IZR (nth j (nth i Aʹ []) 0%Z).
  Hypothesis LA : forall i, (length (nth i A []) <= i)%nat.
  Hypothesis LAʹ : forall i, (length (nth i Aʹ []) <= i)%nat.

  Lemma levels_length : forall k, length (levels k) = k.
  Proof. induction k as [|k IH]; [reflexivity|]. cbn. rewrite app_length, IH. cbn. lia. Qed.
  Lemma levels_nth : forall k j, (j < k)%nat -> nth j (levels k) [] = next_level j (levels j).
  Proof.
    induction k as [|k IH]; intros j H; [lia|]. cbn [levels]. destruct (Nat.eq_dec j k) as [->|].
    - rewrite app_nth2 by (rewrite levels_length; lia). rewrite levels_length, Nat.sub_diag. reflexivity.
    - rewrite app_nth1 by (rewrite levels_length; lia). apply IH. lia.
  Qed.
  Lemma zdot_sum : forall l m k, (length l <= k)%nat -> IZR (zdot l m) = sum_to k (fun j => IZR (nth j l 0%Z) * IZR (nth j m 0%Z)).
  Proof.
    induction l as [|x l IH]; intros m k H.
    - cbn. rewrite OneStep_Proofs3.sum_to_0; [reflexivity|]. intros [|i] _; cbn; ring.
    - destruct k as [|k]; cbn in H; [lia|]. destruct m as [|y m].
      + cbn [zdot]. rewrite OneStep_Proofs3.sum_to_0; [reflexivity|]. intros [|i] _; cbn [nth]; ring.
      + cbn [zdot]. rewrite plus_IZR, mult_IZR, sum_to_S, (IH m k) by lia. reflexivity.
  Qed.
  Lemma zmul_nth : forall l m i, nth i (zmul l m) 0%Z = (nth i l 0 * nth i m 0)%Z.
  Proof.
    induction l as [|x l IH]; intros m i; [destruct i; reflexivity|]. destruct m as [|y m]; [cbn; destruct i; ring|].
    destruct i as [|i]; [reflexivity|]. cbn. apply IH.
  Qed.
  Definition node_of (t : tree) (x : node) : Prop :=
    n_o x = Z.of_nat (order t) /\ IZR (n_p x) * psi t = 1 /\ (0 < n_d x)%Z /\
    (forall i, (i < n)%nat -> phi c a aʹ t i * IZR (n_d x) = IZR (nth i (n_phi x) 0%Z)) /\
    (forall i, (i < n)%nat -> sum_to i (fun j => a i j * phi c a aʹ t j) * IZR (n_d x * D) = IZR (nth i (n_q x) 0%Z)) /\
    (forall i, (i < n)%nat -> sum_to i (fun j => aʹ i j * phi c a aʹ t j) * IZR (n_d x * D) = IZR (nth i (n_v x) 0%Z)).
  Lemma make_of : forall t o p d ph, o = Z.of_nat (order t) -> IZR p * psi t = 1 -> (0 < d)%Z ->
    (forall i, (i < n)%nat -> phi c a aʹ t i * IZR d = IZR (nth i ph 0%Z)) -> node_of t (make o p d ph).
  Proof.
    intros t o p d ph E P Pd H. unfold node_of, make. cbn [n_o n_p n_d n_phi n_q n_v]. split; [exact E|]. split; [exact P|]. split; [exact Pd|]. split; [exact H|].
    assert (G : forall (x : nat -> nat -> R) X, (forall i j, x i j * IZR D = IZR (nth j (nth i X []) 0%Z)) -> (forall i, (length (nth i X []) <= i)%nat) ->
       forall i, (i < n)%nat -> sum_to i (fun j => x i j * phi c a aʹ t j) * IZR (d * D) = IZR (nth i (map (fun row => zdot row ph) X) 0%Z)).
    { intros x X Hx Lx i Hi. change 0%Z with (zdot [] ph). rewrite (map_nth (fun row => zdot row ph)). rewrite (zdot_sum _ _ i) by apply Lx.
      rewrite Rmult_comm, <- sum_to_scal. apply sum_to_ext. intros j Hj. rewrite <- Hx, <- (H j) by lia. rewrite mult_IZR. ring. }
    split; [apply G; assumption|apply G; assumption].
  Qed.
  Lemma nth_repeat_Z : forall k i, (i < k)%nat -> nth i (repeat 1%Z k) 0%Z = 1%Z.
  Proof. induction k as [|k IH]; intros i H; [lia|]. destruct i as [|i]; [reflexivity|]. cbn. apply IH. lia. Qed.
  Lemma root_of : node_of Root root_node.
  Proof. apply make_of; [reflexivity|cbn; ring|lia|]. intros i Hi. cbn [phi]. rewrite nth_repeat_Z by exact Hi. ring. Qed.
  Lemma leaf_of : forall t x, node_of t x -> node_of (Leaf t) (leaf_node x).
  Proof.
    intros t x (E & P & Pd & H & _ & _). apply make_of; [cbn [order]; lia|exact P|nia|].
    intros i Hi. cbn [phi]. rewrite zmul_nth, !mult_IZR, <- H, <- HC by exact Hi. ring.
  Qed.
  Lemma order_IZR : forall t, IZR (Z.of_nat (order t)) = INR (order t) /\ INR (order t) <> 0.
  Proof. intros t. split; [symmetry; apply INR_IZR_INZ|]. apply not_0_INR. pose proof (order_pos t). lia. Qed.
  Lemma v_of : forall t u x y, node_of t x -> node_of u y -> node_of (GraftV t u) (v_node x y).
  Proof.
    intros t u x y (E & P & Pd & H & _ & _) (E' & P' & Pd' & _ & _ & V). destruct (order_IZR u) as [O1 O2]. apply make_of; [cbn [order]; lia| |nia|].
    - cbn [psi]. rewrite E', !mult_IZR, O1. transitivity ((IZR (n_p x) * psi t) * (IZR (n_p y) * psi u)); [field; exact O2|rewrite P, P'; ring].
    - intros i Hi. cbn [phi]. rewrite zmul_nth, mult_IZR, (mult_IZR (nth i _ _)), <- H, <- V by exact Hi. ring.
  Qed.
  Lemma q_of : forall t u x y, node_of t x -> node_of u y -> node_of (GraftQ t u) (q_node x y).
  Proof.
    intros t u x y (E & P & Pd & H & _ & _) (E' & P' & Pd' & _ & V & _). destruct (order_IZR u) as [O1 O2].
    assert (O3 : INR (order u) + 1 <> 0) by (pose proof (pos_INR (order u)); lra). apply make_of; [cbn [order]; lia| |nia|].
    - cbn [psi]. rewrite E', !mult_IZR, plus_IZR, O1, plus_INR. cbn [INR]. transitivity ((IZR (n_p x) * psi t) * (IZR (n_p y) * psi u)); [field; auto|rewrite P, P'; ring].
    - intros i Hi. cbn [phi]. rewrite zmul_nth, mult_IZR, (mult_IZR (nth i _ _)), <- H, <- V by exact Hi. ring.
  Qed.
  Lemma in_products : forall g l m x y, In x l -> In y m -> In (g x y) (products g l m).
  Proof. intros g l m x y X Y. unfold products. apply in_flat_map. exists x. split; [exact X|]. apply in_map. exact Y. Qed.
  Lemma enumerated : forall t k, allowed on_q on_v t -> (order t <= k)%nat -> exists x, In x (nth (order t - 1) (levels k) []) /\ node_of t x.
  Proof.
    induction t as [|t IH|t IHt u IHu|t IHt u IHu]; intros k L H;
      [assert (LV := levels_nth k (order Root - 1) ltac:(pose proof (order_pos Root); lia))
      |assert (LV := levels_nth k (order (Leaf t) - 1) ltac:(pose proof (order_pos (Leaf t)); lia))
      |assert (LV := levels_nth k (order (GraftV t u) - 1) ltac:(pose proof (order_pos (GraftV t u)); lia))
      |assert (LV := levels_nth k (order (GraftQ t u) - 1) ltac:(pose proof (order_pos (GraftQ t u)); lia))].
    - exists root_node. rewrite LV. split; [left; reflexivity|apply root_of].
    - cbn [order allowed] in *. pose proof (order_pos t). destruct (IH (order t) L ltac:(lia)) as (x & X & N). exists (leaf_node x). rewrite LV. split; [|apply leaf_of, N].
      replace (order t + 1 - 1)%nat with (S (order t - 1)) by lia. cbn [next_level]. apply in_or_app. left. apply in_map.
      replace (S (order t - 1)) with (order t) by lia. exact X.
    - cbn [order allowed] in *. pose proof (order_pos t). pose proof (order_pos u). destruct L as (V & L1 & L2).
      destruct (IHt (order t + order u - 1)%nat L1 ltac:(lia)) as (x & X & N). destruct (IHu (order t + order u - 1)%nat L2 ltac:(lia)) as (y & Y & M).
      exists (v_node x y). rewrite LV. split; [|apply v_of; assumption]. destruct (order t + order u - 1)%nat as [|k'] eqn:K; [lia|].
      cbn [next_level]. rewrite V. apply in_or_app. right. apply in_or_app. left. apply in_flat_map. exists (order t - 1)%nat. split; [apply in_seq; lia|].
      apply in_products; [exact X|]. replace (k' - (order t - 1))%nat with (order u - 1)%nat by lia. exact Y.
    - cbn [order allowed] in *. pose proof (order_pos t). pose proof (order_pos u). destruct L as (V & L1 & L2).
      destruct (IHt (order t + order u + 1 - 1)%nat L1 ltac:(lia)) as (x & X & N). destruct (IHu (order t + order u + 1 - 1)%nat L2 ltac:(lia)) as (y & Y & M).
      exists (q_node x y). rewrite LV. split; [|apply q_of; assumption]. destruct (order t + order u + 1 - 1)%nat as [|k'] eqn:K; [lia|].
      cbn [next_level]. rewrite V. apply in_or_app. right. apply in_or_app. right. apply in_flat_map. exists (order t - 1)%nat. split; [apply in_seq; lia|].
      apply in_products; [exact X|]. replace (k' - 1 - (order t - 1))%nat with (order u - 1)%nat by lia. exact Y.
  Qed.
  Lemma checked : forall holds k t, check_levels holds k = true -> allowed on_q on_v t -> (order t <= k)%nat -> exists x, node_of t x /\ holds x = true.
  Proof.
    intros holds k t Ck L H. destruct (enumerated t k L H) as (x & X & N). exists x. split; [exact N|]. unfold check_levels in Ck.
    rewrite forallb_forall in Ck. pose proof (order_pos t).
    assert (I : In (nth (order t - 1) (levels k) []) (levels k)) by (apply nth_In; rewrite levels_length; lia).
    specialize (Ck _ I). rewrite forallb_forall in Ck. apply Ck, X.
  Qed.
  Lemma weights : forall (b : nat -> R) B t x, (forall i, b i * IZR D = IZR (nth i B 0%Z)) -> (length B <= n)%nat -> node_of t x ->
    sum_to n (fun i => b i * phi c a aʹ t i) * IZR (n_d x * D) = IZR (zdot B (n_phi x)).
  Proof.
    intros b B t x HB LB (_ & _ & _ & H & _). rewrite (zdot_sum _ _ n LB), Rmult_comm, <- sum_to_scal. apply sum_to_ext. intros i Hi.
    rewrite <- HB, <- H by exact Hi. rewrite mult_IZR. ring.
  Qed.
  Lemma velocity_checked : forall bʹ Bʹ p, (forall i, bʹ i * IZR D = IZR (nth i Bʹ 0%Z)) -> (length Bʹ <= n)%nat -> check_levels (v_holds Bʹ) p = true ->
    velocity_conditions on_q on_v n c a aʹ bʹ p.
  Proof.
    intros bʹ Bʹ p HB LB Ck t L H. destruct (checked _ _ t Ck L H) as (x & N & Hx). apply Z.eqb_eq in Hx.
    pose proof (weights bʹ Bʹ t x HB LB N) as W. destruct N as (E & P & Pd & _). destruct (order_IZR t) as [O1 O2].
    apply (f_equal IZR) in Hx. rewrite (mult_IZR (zdot _ _)), (mult_IZR (n_p x)), E, O1, <- W in Hx.
    assert (DD : IZR (n_d x * D) <> 0) by (apply not_0_IZR; nia). set (d := IZR (n_d x * D)) in *. set (S := sum_to n _) in *.
    assert (X : S * (IZR (n_p x) * INR (order t)) = 1) by (apply (Rmult_eq_reg_r d); [rewrite <- Hx at 2; ring|exact DD]).
    assert (PN : IZR (n_p x) <> 0) by (intros Z; rewrite Z in P; lra).
    transitivity (S * (IZR (n_p x) * INR (order t)) * psi t / INR (order t)); [|rewrite X; field; exact O2].
    transitivity (S * (IZR (n_p x) * psi t)); [rewrite P; ring|field; exact O2].
  Qed.
  Lemma position_checked : forall b B p, (forall i, b i * IZR D = IZR (nth i B 0%Z)) -> (length B <= n)%nat -> check_levels (q_holds B) (p - 1) = true ->
    position_conditions on_q on_v n c a aʹ b p.
  Proof.
    intros b B p HB LB Ck t L H. destruct (checked _ _ t Ck L ltac:(lia)) as (x & N & Hx). apply Z.eqb_eq in Hx.
    pose proof (weights b B t x HB LB N) as W. destruct N as (E & P & Pd & _). destruct (order_IZR t) as [O1 O2].
    assert (O3 : INR (order t + 1) <> 0) by (apply not_0_INR; lia).
    apply (f_equal IZR) in Hx. rewrite (mult_IZR (zdot _ _)), (mult_IZR (n_p x)), (mult_IZR (n_o x)), plus_IZR, E, O1, <- W in Hx.
    replace (INR (order t) + 1) with (INR (order t + 1)) in Hx by (rewrite plus_INR; reflexivity).
    assert (DD : IZR (n_d x * D) <> 0) by (apply not_0_IZR; nia). set (d := IZR (n_d x * D)) in *. set (S := sum_to n _) in *.
    assert (X : S * (IZR (n_p x) * (INR (order t) * INR (order t + 1))) = 1) by (apply (Rmult_eq_reg_r d); [rewrite <- Hx at 2; ring|exact DD]).
    transitivity (S * (IZR (n_p x) * (INR (order t) * INR (order t + 1))) * psi t / (INR (order t) * INR (order t + 1))); [|rewrite X; field; auto].
    transitivity (S * (IZR (n_p x) * psi t)); [rewrite P; ring|field; auto].
  Qed.
End Enumeration.

(** * Scaling *)
Definition scale (D : Z) (x : Q) : Z := (Qnum (Qred x) * (D / Z.pos (Qden (Qred x))))%Z.
Definition divides (D : Z) (x : Q) : bool := (D mod Z.pos (Qden (Qred x)) =? 0)%Z.
Lemma scale_spec : forall D x, (0 < D)%Z -> divides D x = true -> Q2R x * IZR D = IZR (scale D x).
Proof.
  intros D x HD H. apply Z.eqb_eq in H. rewrite <- (Qeq_eqR _ _ (Qred_correct x)). unfold scale, Q2R. set (y := Qred x) in *.
  assert (E : D = (Z.pos (Qden y) * (D / Z.pos (Qden y)))%Z) by (pose proof (Z.div_mod D (Z.pos (Qden y)) ltac:(lia)); lia).
  rewrite E at 1. rewrite !mult_IZR. field. apply not_0_IZR. lia.
Qed.
Lemma scale_nth : forall D l i, (0 < D)%Z -> forallb (divides D) l = true -> nth i (reals l) 0 * IZR D = IZR (nth i (map (scale D) l) 0%Z).
Proof.
  intros D l i HD H. rewrite nth_reals. destruct (Nat.lt_ge_cases i (length l)) as [L|L].
  - rewrite (nth_indep _ 0%Z (scale D 0)) by (rewrite map_length; exact L). rewrite map_nth. apply scale_spec; [exact HD|].
    rewrite forallb_forall in H. apply H, nth_In, L.
  - rewrite !nth_overflow by (rewrite ?map_length; lia). rewrite Q2R_0. ring.
Qed.
Lemma scale_nth2 : forall D l i j, (0 < D)%Z -> forallb (forallb (divides D)) l = true ->
  nth j (nth i (map reals l) []) 0 * IZR D = IZR (nth j (nth i (map (map (scale D)) l) []) 0%Z).
Proof.
  intros D l i j HD H. change (@nil R) with (reals []). rewrite map_nth. change (@nil Z) with (map (scale D) []). rewrite map_nth. apply scale_nth; [exact HD|].
  destruct (Nat.lt_ge_cases i (length l)) as [L|L]; [|rewrite nth_overflow by lia; reflexivity]. rewrite forallb_forall in H. apply H, nth_In, L.
Qed.
Definition common (l : list Q) : Z := fold_right (fun x d => Z.lcm (Z.pos (Qden (Qred x))) d) 1%Z l.
Fixpoint lower (k : nat) (l : list (list Q)) : bool := match l with [] => true | row :: l => Nat.leb (length row) k && lower (S k) l end.
Lemma lower_spec : forall l k D, lower k l = true -> forall i, (length (nth i (map (map (scale D)) l) []) <= k + i)%nat.
Proof.
  induction l as [|row l IH]; intros k D H i; [destruct i; cbn; lia|]. cbn in H. apply andb_prop in H. destruct H as [H1 H2]. apply Nat.leb_le in H1.
  destruct i as [|i]; cbn [map nth]; [rewrite map_length; lia|]. specialize (IH (S k) D H2 i). lia.
Qed.

(** The verification of a table with [n] stages: [n], the equation, and the weights with their orders. *)
Definition table_order (on_q on_v : bool) (n : nat) (c : list Q) (a aʹ : list (list Q)) (b bʹ : list Q) (pq pv : nat) : bool :=
  let D := common (c ++ concat a ++ concat aʹ ++ b ++ bʹ) in
  let C := map (scale D) c in let A := map (map (scale D)) a in let Aʹ := map (map (scale D)) aʹ in
  ((0 <? D)%Z && forallb (divides D) c && forallb (forallb (divides D)) a && forallb (forallb (divides D)) aʹ && forallb (divides D) b && forallb (divides D) bʹ)
  && (lower 0 a && lower 0 aʹ && Nat.leb (length b) n && Nat.leb (length bʹ) n)
  && check_levels on_q on_v n D C A Aʹ (q_holds D (map (scale D) b)) (pq - 1)
  && check_levels on_q on_v n D C A Aʹ (v_holds D (map (scale D) bʹ)) pv.
Lemma table_order_spec : forall on_q on_v n c a aʹ b bʹ pq pv, table_order on_q on_v n c a aʹ b bʹ pq pv = true ->
  let cR := fun i => nth i (reals c) 0 in let aR := fun i j => nth j (nth i (map reals a) []) 0 in let aʹR := fun i j => nth j (nth i (map reals aʹ) []) 0 in
  position_conditions on_q on_v n cR aR aʹR (fun i => nth i (reals b) 0) pq /\
  velocity_conditions on_q on_v n cR aR aʹR (fun i => nth i (reals bʹ) 0) pv.
Proof.
  intros on_q on_v n c a aʹ b bʹ pq pv H. unfold table_order in H. cbv zeta in H. set (D := common _) in *. clearbody D.
  repeat match goal with H : _ && _ = true |- _ => apply andb_prop in H; destruct H end.
  match goal with H : (0 <? D)%Z = true |- _ => apply Z.ltb_lt in H end.
  repeat match goal with H : Nat.leb _ _ = true |- _ => apply Nat.leb_le in H end. cbv zeta. split.
  - eapply position_checked with (D := D) (C := map (scale D) c) (A := map (map (scale D)) a) (Aʹ := map (map (scale D)) aʹ) (B := map (scale D) b); try assumption.
    + intros i. apply scale_nth; assumption.
    + intros i j. apply scale_nth2; assumption.
    + intros i j. apply scale_nth2; assumption.
    + intros i. apply (lower_spec a 0); assumption.
    + intros i. apply (lower_spec aʹ 0); assumption.
    + intros i. apply scale_nth; assumption.
    + rewrite map_length. assumption.
  - eapply velocity_checked with (D := D) (C := map (scale D) c) (A := map (map (scale D)) a) (Aʹ := map (map (scale D)) aʹ) (Bʹ := map (scale D) bʹ); try assumption.
    + intros i. apply scale_nth; assumption.
    + intros i j. apply scale_nth2; assumption.
    + intros i j. apply scale_nth2; assumption.
    + intros i. apply (lower_spec a 0); assumption.
    + intros i. apply (lower_spec aʹ 0); assumption.
    + intros i. apply scale_nth; assumption.
    + rewrite map_length. assumption.
Qed.
