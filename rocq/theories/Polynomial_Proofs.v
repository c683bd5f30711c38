From Coq Require Import ZArith NArith Bool List Reals Lra Lia Psatz.
From Verif Require Import Polynomial_Model.
Import ListNotations.
Open Scope R_scope.

(** ** Specification: the value of a polynomial with the coefficients [c], [c_0 + c_1 x + ... + c_d x^d]. *)
Definition value (c : list R) (x : R) : R := sum_f_R0 (fun i => nth i c 0 * x ^ i) (Nat.pred (length c)).
Definition value_at (p : polynomial) (x : R) : R := value (coefficients p) (x - origin p).

(** ** Blocks of a polynomial: the sum for [i < n] of [g (low + i) x^i]. *)
Fixpoint block (g : nat -> R) (low n : nat) (x : R) : R := match n with O => 0 | S n => block g low n x + g (low + n)%nat * x ^ n end.
Lemma block_ext : forall g h low n x, (forall i, (low <= i < low + n)%nat -> g i = h i) -> block g low n x = block h low n x.
Proof. induction n as [ | n IH]; cbn [block]; intros x H; [reflexivity | ]. rewrite IH by (intros; apply H; lia). rewrite H by lia. reflexivity. Qed.
Lemma block_split : forall g low m n x, block g low (m + n) x = block g low m x + x ^ m * block g (low + m) n x.
Proof.
  intros g low m n x; induction n as [ | n IH]; [rewrite Nat.add_0_r; cbn [block]; ring | ].
  replace (m + S n)%nat with (S (m + n)) by lia. cbn [block]. rewrite IH, pow_add. replace (low + (m + n))%nat with (low + m + n)%nat by lia. ring.
Qed.
Lemma block_first : forall g low n x, block g low (S n) x = g low + x * block g (S low) n x.
Proof. intros. replace (S n) with (1 + n)%nat by lia. rewrite block_split. cbn [block]. rewrite Nat.add_0_r, Nat.add_1_r. cbn [pow]. ring. Qed.
Lemma block_sum : forall g n x, block g 0 (S n) x = sum_f_R0 (fun i => g i * x ^ i) n.
Proof. induction n as [ | n IH]; intros x; [cbn; ring | ]. cbn [sum_f_R0]. rewrite <- IH. reflexivity. Qed.
Lemma block_zero : forall g low n x, (forall i, (low <= i < low + n)%nat -> g i = 0) -> block g low n x = 0.
Proof. induction n as [ | n IH]; cbn [block]; intros x H; [reflexivity | ]. rewrite IH by (intros; apply H; lia). rewrite H by lia. ring. Qed.
Lemma value_block : forall c x, value c x = block (fun i => get i c) 0 (S (degree c)) x.
Proof. intros. unfold value, get. rewrite block_sum. reflexivity. Qed.
(** Any number of coefficients may be added. *)
Lemma value_block_more : forall c n x, (length c <= n)%nat -> value c x = block (fun i => get i c) 0 n x.
Proof.
  intros c n x H. rewrite value_block. unfold degree. destruct c as [ | a c]; [cbn [length Nat.pred] | ].
  - cbn [block]. rewrite block_zero by (intros i _; unfold get; destruct i; reflexivity). unfold get; cbn; ring.
  - cbn [length] in *. cbn [Nat.pred]. replace n with (S (length c) + (n - S (length c)))%nat by lia. rewrite block_split.
    rewrite (block_zero _ _ (n - _)) by (intros i Hi; unfold get; apply nth_overflow; cbn [length]; lia). ring.
Qed.
Lemma block_linear : forall (a b : R) g h low n x, block (fun i => a * g i + b * h i) low n x = a * block g low n x + b * block h low n x.
Proof. induction n as [ | n IH]; intros x; cbn [block]; [ring | rewrite IH; ring]. Qed.

Lemma pow_pos_ok : forall n x, pow_pos n x = x ^ Pos.to_nat n.
Proof.
  induction n as [n IH | n IH | ]; intros x; cbn [pow_pos].
  - rewrite IH, Pos2Nat.inj_xI. cbn [pow]. rewrite <- pow_add. replace (Pos.to_nat n + Pos.to_nat n)%nat with (2 * Pos.to_nat n)%nat by lia. ring.
  - rewrite IH, Pos2Nat.inj_xO, <- pow_add. f_equal; lia.
  - change (Pos.to_nat 1) with 1%nat. ring.
Qed.
Lemma Pow_ok : forall n x, Pow n x = x ^ N.to_nat n.
Proof. destruct n as [ | n]; intros x; [reflexivity | apply pow_pos_ok]. Qed.
Lemma power_of_2_le_spec : forall n, (power_of_2_le n <= n < 2 * power_of_2_le n)%positive.
Proof. induction n; cbn [power_of_2_le]; lia. Qed.
Lemma PowerOf2Le_spec : forall n, (0 < n)%N -> (PowerOf2Le n <= n < 2 * PowerOf2Le n)%N /\ (0 < PowerOf2Le n)%N.
Proof. destruct n as [ | n]; intros H; [lia | ]. pose proof (power_of_2_le_spec n). cbn [PowerOf2Le]. lia. Qed.

Lemma fma_any : forall (fma : bool) a x b, (if fma then FusedMultiplyAdd a x b else a * x + b) = b + x * a.
Proof. intros [ | ] a x b; unfold FusedMultiplyAdd; ring. Qed.
Lemma estrin_ok : forall fma c x fuel low n, (n <= fuel)%nat -> (1 <= fuel)%nat ->
  InternalEstrin_Evaluate fuel fma c x low (Z.of_nat n - 1) = block (fun i => get i c) low n x.
Proof.
  intros fma c x; induction fuel as [ | fuel IH]; intros low n Hn Hf; [lia | ]. cbn [InternalEstrin_Evaluate].
  destruct (Z.eqb_spec (Z.of_nat n - 1) (-1)) as [E | E]; [replace n with 0%nat by lia; reflexivity | ].
  destruct (Z.eqb_spec (Z.of_nat n - 1) 0) as [E0 | E0]; [replace n with 1%nat by lia; cbn; rewrite Nat.add_0_r; ring | ].
  destruct (Z.eqb_spec (Z.of_nat n - 1) 1) as [E1 | E1]; [replace n with 2%nat by lia; cbv zeta; rewrite fma_any; cbn; rewrite Nat.add_0_r; ring | ].
  cbv zeta. rewrite fma_any. destruct (PowerOf2Le_spec (Z.to_N (Z.of_nat n - 1)) ltac:(lia)) as [H1 H2]. set (m := PowerOf2Le _) in *.
  replace (Z.of_nat n - 1 - Z.of_N m)%Z with (Z.of_nat (n - N.to_nat m) - 1)%Z by lia.
  replace (Z.of_N m - 1)%Z with (Z.of_nat (N.to_nat m) - 1)%Z by lia.
  rewrite !IH by lia. rewrite Pow_ok, <- block_split. f_equal; lia.
Qed.
Lemma estrin_derivative_ok : forall fma c x fuel low n, (n <= fuel)%nat -> (1 <= fuel)%nat ->
  InternalEstrin_EvaluateDerivative fuel fma c x low (Z.of_nat n - 1) = block (fun i => INR i * get i c) low n x.
Proof.
  intros fma c x; induction fuel as [ | fuel IH]; intros low n Hn Hf; [lia | ]. cbn [InternalEstrin_EvaluateDerivative].
  destruct (Z.eqb_spec (Z.of_nat n - 1) (-1)) as [E | E]; [replace n with 0%nat by lia; reflexivity | ].
  destruct (Z.eqb_spec (Z.of_nat n - 1) 0) as [E0 | E0]; [replace n with 1%nat by lia; cbn [block]; rewrite Nat.add_0_r; cbn [pow]; ring | ].
  destruct (Z.eqb_spec (Z.of_nat n - 1) 1) as [E1 | E1]; [replace n with 2%nat by lia; cbv zeta; rewrite fma_any; cbn [block]; rewrite Nat.add_0_r; cbn [pow]; ring | ].
  cbv zeta. rewrite fma_any. destruct (PowerOf2Le_spec (Z.to_N (Z.of_nat n - 1)) ltac:(lia)) as [H1 H2]. set (m := PowerOf2Le _) in *.
  replace (Z.of_nat n - 1 - Z.of_N m)%Z with (Z.of_nat (n - N.to_nat m) - 1)%Z by lia.
  replace (Z.of_N m - 1)%Z with (Z.of_nat (N.to_nat m) - 1)%Z by lia.
  rewrite !IH by lia. rewrite Pow_ok, <- block_split. f_equal; lia.
Qed.
Lemma horner_ok : forall fma c x n low, InternalHorner_Evaluate fma c x low n = block (fun i => get i c) low (S n) x.
Proof.
  intros fma c x; induction n as [ | n IH]; intros low; cbn [InternalHorner_Evaluate].
  - cbn [block]. rewrite Nat.add_0_r; cbn [pow]; ring.
  - cbv zeta. rewrite fma_any, IH, Nat.add_1_r. rewrite (block_first _ low (S n)). reflexivity.
Qed.
Lemma horner_derivative_ok : forall fma c x n low, InternalHorner_EvaluateDerivative fma c x low n = block (fun i => INR i * get i c) low (S n) x.
Proof.
  intros fma c x; induction n as [ | n IH]; intros low; cbn [InternalHorner_EvaluateDerivative].
  - cbn [block]. rewrite Nat.add_0_r; cbn [pow]; ring.
  - cbv zeta. rewrite fma_any, IH, Nat.add_1_r. rewrite (block_first _ low (S n)). ring.
Qed.
Theorem Evaluate_value : forall e fma c x, Evaluate e fma c x = value c x.
Proof.
  intros e fma c x. rewrite value_block. destruct e; cbn [Evaluate]; [ | apply horner_ok].
  replace (Z.of_nat (degree c)) with (Z.of_nat (S (degree c)) - 1)%Z by lia. apply estrin_ok; lia.
Qed.
Lemma EvaluateDerivative_block : forall e fma c x, EvaluateDerivative e fma c x = block (fun i => INR i * get i c) 1 (degree c) x.
Proof.
  intros e fma c x. destruct e; cbn [EvaluateDerivative].
  - apply estrin_derivative_ok; lia.
  - destruct (Nat.ltb_spec (degree c) 1) as [H | H]; [replace (degree c) with 0%nat by lia; reflexivity | ].
    rewrite horner_derivative_ok. f_equal; lia.
Qed.
Lemma derivative_block : forall g n x, derivable_pt_lim (block g 0 (S n)) x (block (fun i => INR i * g i) 1 n x).
Proof.
  intros g; induction n as [ | n IH]; intros x.
  - cbn [block]. apply (derivable_pt_lim_ext (fct_cte (g 0%nat))); [intros y; unfold fct_cte; cbn; ring | apply derivable_pt_lim_const].
  - change (block (fun i => INR i * g i) 1 (S n) x) with (block (fun i => INR i * g i) 1 n x + INR (1 + n) * g (1 + n)%nat * x ^ n).
    apply (derivable_pt_lim_ext (plus_fct (block g 0 (S n)) (mult_real_fct (g (S n)) (fun y => y ^ S n)))).
    + intros y. unfold plus_fct, mult_real_fct. reflexivity.
    + apply derivable_pt_lim_plus; [apply IH | ]. replace (INR (1 + n) * g (1 + n)%nat * x ^ n) with (g (S n) * (INR (S n) * x ^ Nat.pred (S n))) by (cbn [Nat.pred]; change (1 + n)%nat with (S n); ring).
      apply derivable_pt_lim_scal. apply derivable_pt_lim_pow.
Qed.
Lemma shift_derivative : forall f o x l, derivable_pt_lim f (x - o) l -> derivable_pt_lim (fun y => f (y - o)) x l.
Proof.
  intros f o x l H. apply (derivable_pt_lim_ext (comp f (minus_fct id (fct_cte o)))); [intros y; reflexivity | ].
  replace l with (l * (1 - 0)) by ring. apply derivable_pt_lim_comp; [ | exact H].
  apply derivable_pt_lim_minus; [apply derivable_pt_lim_id | apply derivable_pt_lim_const].
Qed.
Theorem EvaluateDerivative_derivative : forall e fma p x, derivable_pt_lim (value_at p) x (evaluate_derivative e fma p x).
Proof.
  intros e fma p x. unfold evaluate_derivative. rewrite EvaluateDerivative_block.
  apply (shift_derivative (value (coefficients p))).
  apply (derivable_pt_lim_ext (block (fun i => get i (coefficients p)) 0 (S (degree (coefficients p))))); [intros y; symmetry; apply value_block | ].
  apply derivative_block.
Qed.

(** ** Lists of coefficients *)
Lemma get_map_seq : forall (f : nat -> R) n i, get i (map f (seq 0 n)) = if Nat.ltb i n then f i else 0.
Proof.
  intros f n i. unfold get. destruct (Nat.ltb_spec i n) as [H | H].
  - rewrite (nth_indep _ 0 (f 0%nat)) by (rewrite map_length, seq_length; lia). rewrite map_nth, seq_nth by lia. reflexivity.
  - apply nth_overflow. rewrite map_length, seq_length. lia.
Qed.
Lemma value_map_seq : forall f n x, value (map f (seq 0 n)) x = block f 0 n x.
Proof.
  intros f n x. rewrite (value_block_more _ n) by (rewrite map_length, seq_length; lia).
  apply block_ext. intros i Hi. rewrite get_map_seq. destruct (Nat.ltb_spec i n); [reflexivity | lia].
Qed.
Lemma value_nil : forall x, value [] x = 0.
Proof. intros x. unfold value. cbn. ring. Qed.
Lemma value_cons : forall a c x, value (a :: c) x = a + x * value c x.
Proof.
  intros a c x. rewrite (value_block_more (a :: c) (S (length c))) by (cbn [length]; lia). rewrite block_first. unfold get at 1. cbn [nth].
  rewrite (value_block_more c (length c)) by lia. f_equal. f_equal. generalize (length c) as n. induction n as [ | n IH]; [reflexivity | cbn [block]; rewrite IH; reflexivity].
Qed.
Lemma value_map : forall (a : R) (f : R -> R) c x, (forall r, f r = a * r) -> value (map f c) x = a * value c x.
Proof. intros a f c x H; induction c as [ | b c IH]; cbn [map]; [rewrite value_nil; ring | rewrite !value_cons, IH, H; ring]. Qed.
Lemma degree_length : forall c, (length c <= S (degree c))%nat.
Proof. intros c; unfold degree; lia. Qed.
Lemma to_degree_value : forall higher p x, (degree (coefficients p) <= higher)%nat -> value_at (to_degree higher p) x = value_at p x.
Proof.
  intros higher p x H. unfold value_at, to_degree; cbn [coefficients origin]. rewrite value_map_seq, (value_block_more _ (S higher)) by (pose proof (degree_length (coefficients p)); lia).
  apply block_ext. intros i Hi. destruct (Nat.leb_spec i (degree (coefficients p))) as [L | L]; [reflexivity | ]. unfold get; symmetry; apply nth_overflow. pose proof (degree_length (coefficients p)); lia.
Qed.
Lemma Primitive_get0 : forall p, get 0 (coefficients (Primitive p)) = 0.
Proof. intros p. unfold Primitive; cbn [coefficients]. rewrite get_map_seq. reflexivity. Qed.
Theorem Primitive_derivative : forall p x, derivable_pt_lim (value_at (Primitive p)) x (value_at p x).
Proof.
  intros p x. unfold value_at at 2. rewrite value_block. apply (shift_derivative (value (coefficients (Primitive p)))).
  set (n := degree (coefficients p)). set (g := fun i => if Nat.eqb i 0 then 0 else get (i - 1) (coefficients p) / INR i).
  apply (derivable_pt_lim_ext (block g 0 (S (S n)))); [intros y; symmetry; unfold Primitive; cbn [coefficients]; apply value_map_seq | ].
  replace (block (fun i => get i (coefficients p)) 0 (S n) (x - origin p)) with (block (fun i => INR i * g i) 1 (S n) (x - origin p)); [apply derivative_block | ].
  generalize (S n) as k. induction k as [ | k IH]; [reflexivity | ]. cbn [block]. rewrite IH. f_equal. f_equal. change (1 + k)%nat with (S k). change (0 + k)%nat with k.
  unfold g; cbn [Nat.eqb]. replace (S k - 1)%nat with k by lia. field. apply not_0_INR; lia.
Qed.
Lemma value_at_zero : forall c, value c 0 = get 0 c.
Proof. intros [ | a c]; [rewrite value_nil; reflexivity | rewrite value_cons; unfold get; cbn [nth]; ring]. Qed.
Theorem Primitive_origin : forall p, value_at (Primitive p) (origin p) = 0.
Proof. intros p. unfold value_at. replace (origin p - origin (Primitive p)) with 0 by (cbn; ring). rewrite value_at_zero. apply Primitive_get0. Qed.
Lemma negate_value : forall p x, value_at (negate p) x = - value_at p x.
Proof. intros p x. unfold value_at, negate; cbn [coefficients origin]. rewrite (value_map (-1)) by (intros; ring). ring. Qed.
Lemma scale_value : forall s p x, value_at (scale s p) x = s * value_at p x.
Proof. intros s p x. unfold value_at, scale; cbn [coefficients origin]. apply value_map. reflexivity. Qed.
Lemma divide_value : forall s p x, value_at (divide p s) x = value_at p x / s.
Proof. intros s p x. unfold value_at, divide; cbn [coefficients origin]. rewrite (value_map (/ s)) by (intros; unfold Rdiv; ring). unfold Rdiv; ring. Qed.
Lemma get_beyond : forall c i, (degree c < i)%nat -> get i c = 0.
Proof. intros c i H. unfold get; apply nth_overflow. pose proof (degree_length c); lia. Qed.
Lemma combine_value : forall both right_only (s : R), (forall a b, both a b = a + s * b) -> (forall b, right_only b = s * b) ->
  forall l r x, value (combine_coefficients both right_only l r) x = value l x + s * value r x.
Proof.
  intros both right_only s Hb Hr l r x. unfold combine_coefficients. rewrite value_map_seq. set (n := S (Nat.max (degree l) (degree r))).
  rewrite (value_block_more l n), (value_block_more r n) by (pose proof (degree_length l); pose proof (degree_length r); lia).
  replace (block (fun i => get i l) 0 n x + s * block (fun i => get i r) 0 n x) with (1 * block (fun i => get i l) 0 n x + s * block (fun i => get i r) 0 n x) by ring.
  rewrite <- block_linear. apply block_ext. intros i Hi. rewrite Rmult_1_l.
  destruct (Nat.leb_spec i (Nat.min (degree l) (degree r))) as [H | H]; [apply Hb | ].
  destruct (Nat.leb_spec i (degree l)) as [H1 | H1].
  - rewrite (get_beyond r) by lia. ring.
  - rewrite Hr, (get_beyond l) by lia. ring.
Qed.
Lemma same_origin_inv : forall p q c r, same_origin p q c = Some r -> origin p = origin q /\ r = Polynomial c (origin p).
Proof. intros p q c r. unfold same_origin. destruct (Req_EM_T _ _) as [H | H]; intros E; [ | discriminate]. split; congruence. Qed.
Theorem plus_value : forall p q r x, plus p q = Some r -> value_at r x = value_at p x + value_at q x.
Proof.
  intros p q r x H. destruct (same_origin_inv _ _ _ _ H) as [E ->]. unfold value_at; cbn [coefficients origin]. rewrite (combine_value _ _ 1) by (intros; ring). rewrite E; ring.
Qed.
Theorem minus_value : forall p q r x, minus p q = Some r -> value_at r x = value_at p x - value_at q x.
Proof.
  intros p q r x H. destruct (same_origin_inv _ _ _ _ H) as [E ->]. unfold value_at; cbn [coefficients origin]. rewrite (combine_value _ _ (-1)) by (intros; ring). rewrite E; ring.
Qed.
Lemma add_at_length : forall k v c, length (add_at k v c) = length c.
Proof. induction k as [ | k IH]; intros v [ | a c]; cbn [add_at length]; try reflexivity. rewrite IH; reflexivity. Qed.
Lemma add_at_value : forall k v c x, (k < length c)%nat -> value (add_at k v c) x = value c x + v * x ^ k.
Proof.
  induction k as [ | k IH]; intros v [ | a c] x H; cbn [length] in H; try lia; cbn [add_at]; rewrite !value_cons; [cbn [pow]; ring | ]. rewrite IH by lia. cbn [pow]; ring.
Qed.
(** A loop of additions to coefficients. *)
Lemma add_loop : forall (f : nat -> nat) (g : nat -> R) n start c x, (forall i, (start <= i < start + n)%nat -> (f i < length c)%nat) ->
  length (fold_left (fun result j => add_at (f j) (g j) result) (seq start n) c) = length c /\
  value (fold_left (fun result j => add_at (f j) (g j) result) (seq start n) c) x = value c x + fold_right Rplus 0 (map (fun j => g j * x ^ f j) (seq start n)).
Proof.
  intros f g; induction n as [ | n IH]; intros start c x H; cbn [seq fold_left map fold_right]; [split; [reflexivity | ring] | ].
  destruct (IH (S start) (add_at (f start) (g start) c) x) as [H1 H2]; [intros i Hi; rewrite add_at_length; apply H; lia | ].
  rewrite H1, H2, add_at_length. split; [reflexivity | ]. rewrite add_at_value by (apply H; lia). ring.
Qed.
Lemma sum_block : forall g k n start x, fold_right Rplus 0 (map (fun j => g j * x ^ (k + j)) (seq start n)) = x ^ (k + start) * block g start n x.
Proof.
  intros g k; induction n as [ | n IH]; intros start x; cbn [seq map fold_right]; [cbn [block]; ring | ].
  rewrite IH, block_first. replace (k + S start)%nat with (S (k + start)) by lia. cbn [pow]. ring.
Qed.
Lemma value_zeros : forall n x, value (repeat 0 n) x = 0.
Proof. induction n as [ | n IH]; intros x; cbn [repeat]; [apply value_nil | rewrite value_cons, IH; ring]. Qed.
Lemma product_loop : forall l r n start c x, (start + n <= S (degree l))%nat -> (S (degree l + degree r) <= length c)%nat ->
  let result := fold_left (fun result i => fold_left (fun result j => add_at (i + j) (get i l * get j r) result) (seq 0 (S (degree r))) result) (seq start n) c in
  length result = length c /\ value result x = value c x + x ^ start * block (fun i => get i l) start n x * value r x.
Proof.
  intros l r; induction n as [ | n IH]; intros start c x Hn Hc; cbv zeta; [split; [reflexivity | cbn [block seq fold_left]; ring] | ].
  change (seq start (S n)) with (start :: seq (S start) n). cbn [fold_left].
  destruct (add_loop (fun j => (start + j)%nat) (fun j => get start l * get j r) (S (degree r)) 0 c x) as [L1 L2]; [intros i Hi; lia | ].
  cbv beta in L1, L2. set (c' := fold_left _ (seq 0 (S (degree r))) c) in *.
  destruct (IH (S start) c' x ltac:(lia) ltac:(lia)) as [L3 L4]. cbv zeta in L3, L4. fold c'. rewrite L3, L4, L1, L2. split; [reflexivity | ].
  rewrite (sum_block (fun j => get start l * get j r) start). rewrite Nat.add_0_r.
  assert (E : block (fun j => get start l * get j r) 0 (S (degree r)) x = get start l * value r x).
  { rewrite value_block. pose proof (block_linear (get start l) 0 (fun i => get i r) (fun _ => 0) 0 (S (degree r)) x) as B. rewrite (block_ext _ (fun i => get start l * get i r + 0 * 0)) by (intros; ring). rewrite B. ring. }
  rewrite E, (block_first (fun i => get i l)). cbn [pow]. ring.
Qed.
Theorem times_value : forall p q r x, times p q = Some r -> value_at r x = value_at p x * value_at q x.
Proof.
  intros p q r x H. destruct (same_origin_inv _ _ _ _ H) as [E ->]. unfold value_at; cbn [coefficients origin]. unfold product_coefficients.
  destruct (product_loop (coefficients p) (coefficients q) (S (degree (coefficients p))) 0 (repeat 0 (S (degree (coefficients p) + degree (coefficients q)))) (x - origin p) ltac:(lia) ltac:(rewrite repeat_length; lia)) as [_ H2].
  cbv zeta in H2. rewrite H2, value_zeros, <- value_block, <- E. cbn [pow]; ring.
Qed.
Lemma product_length : forall l r, length (product_coefficients l r) = S (degree l + degree r).
Proof.
  intros l r. unfold product_coefficients. destruct (product_loop l r (S (degree l)) 0 (repeat 0 (S (degree l + degree r))) 0 ltac:(lia) ltac:(rewrite repeat_length; lia)) as [H _].
  cbv zeta in H. rewrite H. apply repeat_length.
Qed.
Lemma times_defined : forall p q, origin p = origin q -> exists r, times p q = Some r /\ origin r = origin p /\ degree (coefficients r) = (degree (coefficients p) + degree (coefficients q))%nat.
Proof.
  intros p q H. unfold times, same_origin. destruct (Req_EM_T _ _) as [E | E]; [ | contradiction]. eexists; split; [reflexivity | ]. split; [reflexivity | ]. cbn [coefficients]. unfold degree at 1. rewrite product_length. reflexivity.
Qed.
Lemma map_first_value : forall first others (v a : R) c x, (forall r, first r = v + a * r) -> (forall r, others r = a * r) -> value (map_first first others c) x = v + a * value c x.
Proof.
  intros first others v a c x Hf Ho. unfold map_first. rewrite value_map_seq, value_block, !block_first. cbn [Nat.eqb]. rewrite Hf.
  assert (E : forall n low, (0 < low)%nat -> block (fun i => if Nat.eqb i 0 then first (get i c) else others (get i c)) low n x = a * block (fun i => get i c) low n x).
  { induction n as [ | n IH]; intros low Hl; cbn [block]; [ring | ]. rewrite IH by exact Hl. destruct (Nat.eqb_spec (low + n) 0); [lia | ]. rewrite Ho. ring. }
  rewrite E by lia. ring.
Qed.
Lemma plus_constant_value : forall p v x, value_at (plus_constant p v) x = value_at p x + v.
Proof. intros. unfold value_at; cbn [coefficients origin plus_constant]. rewrite (map_first_value _ _ v 1) by (intros; ring). ring. Qed.
Lemma minus_constant_value : forall p v x, value_at (minus_constant p v) x = value_at p x - v.
Proof. intros. unfold value_at; cbn [coefficients origin minus_constant]. rewrite (map_first_value _ _ (-v) 1) by (intros; ring). ring. Qed.
Lemma constant_minus_value : forall p v x, value_at (constant_minus v p) x = v - value_at p x.
Proof. intros. unfold value_at; cbn [coefficients origin constant_minus]. rewrite (map_first_value _ _ v (-1)) by (intros; ring). ring. Qed.

(** ** Composition *)
Lemma pow_polynomial_ok : forall n p, exists q, pow_polynomial n p = Some q /\ origin q = origin p /\
  degree (coefficients q) = (Pos.to_nat n * degree (coefficients p))%nat /\ forall x, value_at q x = value_at p x ^ Pos.to_nat n.
Proof.
  induction n as [n IH | n IH | ]; intros p; cbn [pow_polynomial].
  - destruct (times_defined p p eq_refl) as (s & E & Es & Ds). rewrite E. destruct (IH s) as (q & E2 & Eq & Dq & Vq). rewrite E2.
    destruct (times_defined q p ltac:(congruence)) as (t & E3 & Et & Dt). rewrite E3. eexists; split; [reflexivity | ]. split; [congruence | ]. rewrite Pos2Nat.inj_xI. split; [lia | ].
    intros x. rewrite (times_value _ _ _ _ E3), Vq, (times_value _ _ _ _ E). cbn [pow]. rewrite pow_mult. replace (value_at p x ^ 2) with (value_at p x * value_at p x) by ring. ring.
  - destruct (times_defined p p eq_refl) as (s & E & Es & Ds). rewrite E. destruct (IH s) as (q & E2 & Eq & Dq & Vq). rewrite E2.
    eexists; split; [reflexivity | ]. split; [congruence | ]. rewrite Pos2Nat.inj_xO. split; [lia | ].
    intros x. rewrite Vq, (times_value _ _ _ _ E), pow_mult. f_equal; ring.
  - exists p. split; [reflexivity | ]. split; [reflexivity | ]. change (Pos.to_nat 1) with 1%nat. split; [lia | ]. intros x; ring.
Qed.
Definition compose_step (p q : polynomial) (result : option (list R)) (i : nat) : option (list R) :=
  match result with
  | None => None
  | Some result =>
    if Nat.eqb i 0 then Some (match result with _ :: rest => get 0 (coefficients p) :: rest | [] => [] end)
    else match pow_polynomial (Pos.of_nat i) (minus_constant q (origin p)) with
         | Some m => let c := coefficients (scale (get i (coefficients p)) m) in
                     Some (fold_left (fun result j => add_at j (get j c) result) (seq 0 (S (degree c))) result)
         | None => None
         end
  end.
Lemma map_first_degree : forall f o c, degree (map_first f o c) = degree c.
Proof. intros. unfold map_first. unfold degree at 1. rewrite map_length, seq_length. reflexivity. Qed.
Lemma compose_loop : forall p q n start c x, (0 < start)%nat -> (start + n <= S (degree (coefficients p)))%nat ->
  length c = S (degree (coefficients p) * degree (coefficients q)) ->
  exists c', fold_left (compose_step p q) (seq start n) (Some c) = Some c' /\
    value c' (x - origin q) = value c (x - origin q) + (value_at q x - origin p) ^ start * block (fun i => get i (coefficients p)) start n (value_at q x - origin p).
Proof.
  intros p q; induction n as [ | n IH]; intros start c x Hs Hn Hc; cbn [seq fold_left]; [exists c; split; [reflexivity | cbn [block]; ring] | ].
  cbn [compose_step]. destruct (Nat.eqb_spec start 0) as [Z | Z]; [lia | ].
  destruct (pow_polynomial_ok (Pos.of_nat start) (minus_constant q (origin p))) as (m & E & Em & Dm & Vm). rewrite E. cbv zeta.
  rewrite Nat2Pos.id in Dm, Vm by lia. set (s := scale (get start (coefficients p)) m).
  assert (Ds : degree (coefficients s) = (start * degree (coefficients q))%nat).
  { unfold s, scale; cbn [coefficients]. unfold degree at 1. rewrite map_length. fold (degree (coefficients m)). rewrite Dm. cbn [minus_constant coefficients]. rewrite map_first_degree. reflexivity. }
  destruct (add_loop (fun j => j) (fun j => get j (coefficients s)) (S (degree (coefficients s))) 0 c (x - origin q)) as [L1 L2]; [intros i Hi; rewrite Hc; nia | ].
  cbv beta in L1, L2. set (c1 := fold_left _ _ c) in *.
  destruct (IH (S start) c1 x ltac:(lia) ltac:(lia) ltac:(lia)) as (c' & E' & V'). exists c'. split; [exact E' | ]. rewrite V', L2.
  pose proof (sum_block (fun j => get j (coefficients s)) 0 (S (degree (coefficients s))) 0 (x - origin q)) as B. change (0 + 0)%nat with 0%nat in B. cbn [pow] in B. cbn [Nat.add] in B. rewrite B, Rmult_1_l, <- value_block.
  assert (Es : origin s = origin q) by (unfold s; cbn [scale origin]; rewrite Em; reflexivity).
  replace (value (coefficients s) (x - origin q)) with (value_at s x) by (unfold value_at; rewrite Es; reflexivity).
  unfold s. rewrite scale_value, Vm, minus_constant_value. rewrite (block_first _ start n). cbn [pow]. ring.
Qed.
Theorem Compose_value : forall p q x, exists r, Compose p q = Some r /\ value_at r x = value_at p (value_at q x).
Proof.
  intros p q x. unfold Compose. cbv zeta. fold (compose_step p q).
  set (z := repeat 0 (S (degree (coefficients p) * degree (coefficients q)))).
  change (seq 0 (S (degree (coefficients p)))) with (0%nat :: seq 1 (degree (coefficients p))). cbn [fold_left].
  assert (Hz : exists c0, compose_step p q (Some z) 0 = Some c0 /\ length c0 = S (degree (coefficients p) * degree (coefficients q)) /\ forall y, value c0 y = get 0 (coefficients p)).
  { unfold z; cbn [repeat compose_step Nat.eqb]. eexists; split; [reflexivity | ]. cbn [length]. rewrite repeat_length. split; [reflexivity | ]. intros y. rewrite value_cons, value_zeros. ring. }
  destruct Hz as (c0 & E0 & Lc0 & V0). 
  match goal with |- context [fold_left _ _ ?s] => change s with (compose_step p q (Some z) 0) end. rewrite E0.
  destruct (compose_loop p q (degree (coefficients p)) 1 c0 x ltac:(lia) ltac:(lia) Lc0) as (c' & E' & V').
  change (fold_left (compose_step p q) (seq 1 (degree (coefficients p))) (Some c0)) with (fold_left (compose_step p q) (seq 1 (degree (coefficients p))) (Some c0)) in E'.
  match type of E' with ?l = _ => match goal with |- context [match ?m with _ => _ end] => change m with l end end.
  rewrite E'. eexists; split; [reflexivity | ]. unfold value_at at 1; cbn [coefficients origin]. rewrite V', V0.
  unfold value_at at 3. rewrite value_block, block_first. cbn [pow]. ring.
Qed.

(** ** Change of origin *)
Fixpoint zfact (n : nat) : Z := match n with O => 1 | S m => Z.of_nat n * zfact m end%Z.
Lemma zfact_fact : forall n, zfact n = Z.of_nat (fact n).
Proof. induction n as [ | n IH]; [reflexivity | ]. cbn [zfact]. rewrite IH. change (fact (S n)) with (S n * fact n)%nat. lia. Qed.
Definition binomial_good (n k : nat) : bool := match Binomial n k with Some b => (b * (zfact k * zfact (n - k)) =? zfact n)%Z | None => false end.
Lemma binomials_good : forallb (fun n => forallb (binomial_good n) (seq 0 (S n))) (seq 0 21) = true.
Proof. vm_compute. reflexivity. Qed.
Lemma Binomial_ok : forall n k, (k <= n <= 20)%nat -> exists b, Binomial n k = Some b /\ IZR b = C n k.
Proof.
  intros n k H. pose proof (proj1 (forallb_forall _ _) binomials_good n ltac:(apply in_seq; lia)) as G. cbv beta in G.
  pose proof (proj1 (forallb_forall _ _) G k ltac:(apply in_seq; lia)) as G2. unfold binomial_good in G2. destruct (Binomial n k) as [b | ]; [ | discriminate].
  exists b; split; [reflexivity | ]. apply Z.eqb_eq in G2. rewrite !zfact_fact in G2. apply (f_equal IZR) in G2. rewrite !mult_IZR, <- !INR_IZR_INZ in G2. unfold C. rewrite <- G2. field. split; apply INR_fact_neq_0.
Qed.
Lemma all_some : forall {A B} (f : A -> option B) (g : A -> B) l, (forall a, In a l -> f a = Some (g a)) -> all (map f l) = Some (map g l).
Proof. intros A B f g; induction l as [ | a l IH]; intros H; cbn [map all]; [reflexivity | ]. rewrite H by (left; reflexivity). rewrite IH by (intros; apply H; right; assumption). reflexivity. Qed.
Lemma all_none : forall {A B} (f : A -> option B) l a, In a l -> f a = None -> all (map f l) = None.
Proof. intros A B f; induction l as [ | b l IH]; intros a H E; [destruct H | ]. cbn [map all]. destruct H as [-> | H]; [rewrite E; reflexivity | ]. rewrite (IH a H E). destruct (f b); reflexivity. Qed.
Lemma sum_lists_ok : forall a b x, length a = length b -> length (sum_lists a b) = length a /\ value (sum_lists a b) x = value a x + value b x.
Proof.
  induction a as [ | u a IH]; intros [ | v b] x H; try discriminate; cbn [sum_lists]; [rewrite value_nil; split; [reflexivity | ring] | ].
  injection H as H. destruct (IH b x H) as [H1 H2]. cbn [length]. rewrite H1, !value_cons, H2. split; [reflexivity | ring].
Qed.
Lemma sum_all_ok : forall d l s x, length s = S d -> (forall c, In c l -> length c = S d) ->
  length (fold_left sum_lists l s) = S d /\ value (fold_left sum_lists l s) x = value s x + fold_right Rplus 0 (map (fun c => value c x) l).
Proof.
  intros d; induction l as [ | c l IH]; intros s x Hs Hl; cbn [fold_left map fold_right]; [split; [exact Hs | ring] | ].
  destruct (sum_lists_ok s c x) as [H1 H2]; [rewrite Hs, (Hl c (or_introl eq_refl)); reflexivity | ].
  destruct (IH (sum_lists s c) x ltac:(congruence) ltac:(intros; apply Hl; right; assumption)) as [H3 H4]. rewrite H3, H4, H2. split; [reflexivity | ring].
Qed.
Definition monomial_coefficient (n : nat) (a shift : R) (k : nat) : R := if Nat.leb k n then a * C n k * shift ^ (n - k) else 0.
Lemma Monomial_ok : forall d n a shift, (n <= d)%nat -> (n <= 20)%nat ->
  MonomialAtOrigin d n a shift = Some (map (monomial_coefficient n a shift) (seq 0 (S d))).
Proof.
  intros d n a shift Hd Hn. unfold MonomialAtOrigin. apply all_some. intros k Hk. unfold monomial_coefficient. destruct (Nat.leb_spec k n) as [L | L]; [ | reflexivity].
  destruct (Binomial_ok n k ltac:(lia)) as (b & -> & ->). rewrite Pow_ok, Nat2N.id. reflexivity.
Qed.
Lemma monomial_value : forall d n a shift y, (n <= d)%nat -> value (map (monomial_coefficient n a shift) (seq 0 (S d))) y = a * (y + shift) ^ n.
Proof.
  intros d n a shift y H. rewrite value_map_seq. replace (S d) with (S n + (d - n))%nat by lia. rewrite block_split.
  rewrite (block_zero _ _ (d - n)) by (intros i Hi; unfold monomial_coefficient; destruct (Nat.leb_spec i n); [lia | reflexivity]).
  rewrite block_sum, binomial, Rmult_0_r, Rplus_0_r, scal_sum. apply sum_eq. intros i Hi. unfold monomial_coefficient. destruct (Nat.leb_spec i n); [ring | lia].
Qed.
Theorem AtOrigin_value : forall p o, (degree (coefficients p) <= 20)%nat ->
  exists q, AtOrigin p o = Some q /\ origin q = o /\ degree (coefficients q) = degree (coefficients p) /\ forall x, value_at q x = value_at p x.
Proof.
  intros p o H. unfold AtOrigin. cbv zeta. set (d := degree (coefficients p)) in *. set (shift := o - origin p).
  rewrite (all_some _ (fun n => map (monomial_coefficient n (get n (coefficients p)) shift) (seq 0 (S d)))) by (intros n Hn; apply in_seq in Hn; apply Monomial_ok; lia).
  eexists; split; [reflexivity | ]. split; [reflexivity | ]. cbn [coefficients].
  assert (S : forall x, length (fold_left sum_lists (map (fun n => map (monomial_coefficient n (get n (coefficients p)) shift) (seq 0 (S d))) (seq 0 (S d))) (repeat 0 (S d))) = S d /\
    value (fold_left sum_lists (map (fun n => map (monomial_coefficient n (get n (coefficients p)) shift) (seq 0 (S d))) (seq 0 (S d))) (repeat 0 (S d))) (x - o) = value_at p x).
  { intros x. destruct (sum_all_ok d (map (fun n => map (monomial_coefficient n (get n (coefficients p)) shift) (seq 0 (S d))) (seq 0 (S d))) (repeat 0 (S d)) (x - o)) as [H1 H2].
    - apply repeat_length.
    - intros c Hc. apply in_map_iff in Hc. destruct Hc as (n & <- & _). rewrite map_length, seq_length. reflexivity.
    - split; [exact H1 | ]. rewrite H2, value_zeros, Rplus_0_l, map_map. unfold value_at. rewrite value_block. fold d.
      pose proof (sum_block (fun j => get j (coefficients p)) 0 (S d) 0 (x - origin p)) as B. change (0 + 0)%nat with 0%nat in B. cbn [pow] in B. rewrite Rmult_1_l in B. cbn [Nat.add] in B. rewrite <- B. f_equal.
      apply map_ext_in. intros n Hn. apply in_seq in Hn. rewrite monomial_value by lia. replace (x - o + shift) with (x - origin p) by (unfold shift; ring). reflexivity. }
  split; [unfold degree at 1; rewrite (proj1 (S 0)); reflexivity | ]. intros x. apply S.
Qed.
Lemma binomial_overflow : Binomial 21 21 = None.
Proof. vm_compute. reflexivity. Qed.
Theorem AtOrigin_overflow : forall p o, (21 <= degree (coefficients p))%nat -> AtOrigin p o = None.
Proof.
  intros p o H. unfold AtOrigin. cbv zeta. rewrite (all_none _ _ 21%nat); [reflexivity | apply in_seq; lia | ].
  unfold MonomialAtOrigin. apply (all_none _ _ 21%nat); [apply in_seq; lia | ]. cbn [Nat.leb]. rewrite binomial_overflow. reflexivity.
Qed.

(** ** Derivatives *)
Lemma Falling_S : forall m k, FallingFactorial m (S k) = match FallingFactorial m k with Some r => int64 (r * (Z.of_nat m - Z.of_nat k)) | None => None end.
Proof. intros m k. unfold FallingFactorial. rewrite seq_S, fold_left_app. reflexivity. Qed.
Lemma int64_inv : forall z r, int64 z = Some r -> r = z.
Proof. intros z r. unfold int64. destruct (_ && _); congruence. Qed.
Lemma Falling_step : forall n k f, FallingFactorial (n + S k) (S k) = Some f -> exists g, FallingFactorial (S n + k) k = Some g /\ f = (Z.of_nat (S n) * g)%Z.
Proof.
  intros n k f H. replace (n + S k)%nat with (S n + k)%nat in H by lia. rewrite Falling_S in H. destruct (FallingFactorial (S n + k) k) as [g | ]; [ | discriminate].
  exists g; split; [reflexivity | ]. rewrite (int64_inv _ _ H). lia.
Qed.
Lemma all_inv : forall {A B} (f : A -> option B) l r, all (map f l) = Some r -> length r = length l /\ forall i d e, (i < length l)%nat -> f (nth i l d) = Some (nth i r e).
Proof.
  intros A B f; induction l as [ | a l IH]; intros r; cbn [map all].
  - intros H; injection H as <-. split; [reflexivity | ]. intros i d e Hi. cbn in Hi. lia.
  - destruct (f a) as [b | ] eqn:E; [ | discriminate]. destruct (all (map f l)) as [m | ]; [ | discriminate]. intros H; injection H as <-. destruct (IH m eq_refl) as [H1 H2].
    cbn [length]. split; [congruence | ]. intros [ | i] d e Hi; cbn [nth]; [exact E | apply H2; lia].
Qed.
Lemma Derivative_inv : forall k p q, Derivative k p = Some q -> origin q = origin p /\ length (coefficients q) = S (degree (coefficients p) - k) /\
  forall n, (n <= degree (coefficients p) - k)%nat -> exists f, FallingFactorial (n + k) k = Some f /\ get n (coefficients q) = IZR f * get (n + k) (coefficients p).
Proof.
  intros k p q. unfold Derivative. destruct (all _) as [c | ] eqn:E; [ | discriminate]. intros H; injection H as <-. cbn [coefficients origin]. destruct (all_inv _ _ _ E) as [H1 H2]. rewrite seq_length in *.
  split; [reflexivity | ]. split; [exact H1 | ]. intros n Hn. specialize (H2 n 0%nat 0 ltac:(lia)). rewrite seq_nth in H2 by lia. rewrite Nat.add_0_l in H2. destruct (FallingFactorial (n + k) k) as [f | ]; [ | discriminate].
  exists f; split; [reflexivity | ]. injection H2 as H2. unfold get at 1. symmetry; exact H2.
Qed.
Theorem Derivative_0 : forall p q x, Derivative 0 p = Some q -> value_at q x = value_at p x.
Proof.
  intros p q x H. destruct (Derivative_inv _ _ _ H) as (Ho & Hl & Hc). unfold value_at. rewrite Ho, !value_block. unfold degree at 1. rewrite Hl. cbn [Nat.pred]. rewrite Nat.sub_0_r in *.
  apply block_ext. intros i Hi. destruct (Hc i ltac:(lia)) as (f & E & G). rewrite Nat.add_0_r in *. cbn in E. injection E as <-. rewrite G. ring.
Qed.
Theorem Derivative_S : forall k p q r x, (S k <= degree (coefficients p))%nat -> Derivative k p = Some q -> Derivative (S k) p = Some r -> derivable_pt_lim (value_at q) x (value_at r x).
Proof.
  intros k p q r x Hd Hq Hr. destruct (Derivative_inv _ _ _ Hq) as (Oq & Lq & Cq). destruct (Derivative_inv _ _ _ Hr) as (Or & Lr & Cr).
  unfold value_at at 2. rewrite Or, <- Oq. apply (shift_derivative (value (coefficients q))).
  set (m := (degree (coefficients p) - S k)%nat) in *. replace (degree (coefficients p) - k)%nat with (S m) in * by (unfold m; lia).
  apply (derivable_pt_lim_ext (block (fun i => get i (coefficients q)) 0 (S (S m)))); [intros y; rewrite value_block; unfold degree; rewrite Lq; reflexivity | ].
  replace (value (coefficients r) (x - origin q)) with (block (fun i => INR i * get i (coefficients q)) 1 (S m) (x - origin q)); [apply derivative_block | ].
  rewrite value_block. unfold degree. rewrite Lr. cbn [Nat.pred].
  assert (G : forall n, (n <= S m)%nat -> block (fun i => INR i * get i (coefficients q)) 1 n (x - origin q) = block (fun i => get i (coefficients r)) 0 n (x - origin q)).
  { induction n as [ | n IH]; intros Hn; [reflexivity | ]. cbn [block]. rewrite IH by lia. f_equal. f_equal. change (1 + n)%nat with (S n). change (0 + n)%nat with n.
    destruct (Cr n ltac:(lia)) as (f & E & ->). destruct (Falling_step n k f E) as (g & E2 & ->). destruct (Cq (S n) ltac:(lia)) as (g' & E3 & ->). rewrite E2 in E3. injection E3 as <-.
    rewrite mult_IZR, <- INR_IZR_INZ. replace (S n + k)%nat with (n + S k)%nat by lia. ring. }
  apply G. lia.
Qed.
Lemma fallings_defined : forallb (fun n => forallb (fun k => match FallingFactorial n k with Some _ => true | None => false end) (seq 0 (S n))) (seq 0 21) = true.
Proof. vm_compute. reflexivity. Qed.
Theorem Derivative_defined : forall k p, (k <= degree (coefficients p))%nat -> (degree (coefficients p) <= 20)%nat -> exists q, Derivative k p = Some q /\ degree (coefficients q) = (degree (coefficients p) - k)%nat.
Proof.
  intros k p Hk Hd. unfold Derivative.
  rewrite (all_some _ (fun n => match FallingFactorial (n + k) k with Some f => IZR f * get (n + k) (coefficients p) | None => 0 end)).
  - eexists; split; [reflexivity | ]. cbn [coefficients]. unfold degree at 1. rewrite map_length, seq_length. reflexivity.
  - intros n Hn. apply in_seq in Hn. pose proof (proj1 (forallb_forall _ _) fallings_defined (n + k)%nat ltac:(apply in_seq; lia)) as G. cbv beta in G.
    pose proof (proj1 (forallb_forall _ _) G k ltac:(apply in_seq; lia)) as G2. cbv beta in G2. destruct (FallingFactorial (n + k) k); [reflexivity | discriminate].
Qed.
Lemma estrin_split n : (0 < n)%N -> exists k, PowerOf2Le n = (2 ^ k)%N /\ (2 ^ k <= n < 2 ^ (k + 1))%N.
Proof.
  destruct n as [|n]; [lia|]. intros _. assert (forall n, exists k : N, Npos (power_of_2_le n) = (2 ^ k)%N) as H.
  { clear n. induction n as [n [k E]|n [k E]|]; cbn [power_of_2_le]; [exists (N.succ k)|exists (N.succ k)|exists 0%N; reflexivity]; rewrite N.pow_succ_r', <- E; lia. }
  destruct (H n) as [k E]. exists k. cbn [PowerOf2Le]. split; [exact E|]. rewrite N.add_1_r, N.pow_succ_r', <- E.
  pose proof (power_of_2_le_spec n). lia.
Qed.
