(* The reduction of Lenstra, Lenstra and Lovász: the effect of the operations on
   the columns. *)
From Coq Require Import ZArith QArith Qcanon Qcabs Bool Arith Lia Lqa.
From Verif Require Import Matrix_Model Matrix_Spec Matrix_Proofs.
From Verif Require Import Lattice_Model Lattice_Spec Lattice_Proofs.
Local Open Scope nat_scope.

(* -------------------------------------------------------------- integers *)

Lemma of_Z_add : forall a b, of_Z (a + b) = (of_Z a + of_Z b)%Qc.
Proof.
  intros a b. apply Qc_is_canon. unfold of_Z. toQ. rewrite inject_Z_plus. reflexivity.
Qed.
Lemma of_Z_mul : forall a b, of_Z (a * b) = (of_Z a * of_Z b)%Qc.
Proof.
  intros a b. apply Qc_is_canon. unfold of_Z. toQ. rewrite inject_Z_mult. reflexivity.
Qed.
Lemma of_Z_opp : forall a, of_Z (- a) = (- of_Z a)%Qc.
Proof.
  intros a. apply Qc_is_canon. unfold of_Z. toQ. rewrite inject_Z_opp. reflexivity.
Qed.
Lemma of_Z_sub : forall a b, of_Z (a - b) = (of_Z a - of_Z b)%Qc.
Proof. intros. unfold Z.sub, Qcminus. rewrite of_Z_add, of_Z_opp. reflexivity. Qed.
Lemma of_Z_0 : of_Z 0 = 0%Qc.
Proof. apply Qc_is_canon. reflexivity. Qed.
Lemma of_Z_1 : of_Z 1 = 1%Qc.
Proof. apply Qc_is_canon. reflexivity. Qed.
Lemma of_Z_le : forall a b, (of_Z a <= of_Z b)%Qc <-> (a <= b)%Z.
Proof.
  intros a b. unfold of_Z. toQ. rewrite <- Zle_Qle. reflexivity.
Qed.
Lemma of_Z_lt : forall a b, (of_Z a < of_Z b)%Qc <-> (a < b)%Z.
Proof.
  intros a b. unfold of_Z. toQ. rewrite <- Zlt_Qlt. reflexivity.
Qed.
Lemma of_Z_inj : forall a b, of_Z a = of_Z b -> a = b.
Proof.
  intros a b H. apply Z.le_antisymm; apply of_Z_le; rewrite H; apply Qcle_refl.
Qed.
Lemma of_Z_num : forall a, Qnum (this (of_Z a)) = a.
Proof.
  intros a. unfold of_Z. cbn [this Q2Qc]. unfold inject_Z, Qred.
  pose proof (Z.ggcd_gcd a 1) as G. pose proof (Z.ggcd_correct_divisors a 1) as D.
  destruct (Z.ggcd a 1) as [g [aa bb]]. cbn [fst snd] in *.
  rewrite Z.gcd_1_r in G. subst g. destruct D as [D1 D2]. cbn [Qnum]. lia.
Qed.

Definition is_int (x : Qc) := exists z, x = of_Z z.
Lemma int_Z : forall z, is_int (of_Z z).
Proof. intros z; exists z; reflexivity. Qed.
Lemma int_add : forall a b, is_int a -> is_int b -> is_int (a + b)%Qc.
Proof. intros a b [x ->] [y ->]. exists (x + y)%Z. rewrite of_Z_add. reflexivity. Qed.
Lemma int_sub : forall a b, is_int a -> is_int b -> is_int (a - b)%Qc.
Proof. intros a b [x ->] [y ->]. exists (x - y)%Z. rewrite of_Z_sub. reflexivity. Qed.
Lemma int_mul : forall a b, is_int a -> is_int b -> is_int (a * b)%Qc.
Proof. intros a b [x ->] [y ->]. exists (x * y)%Z. rewrite of_Z_mul. reflexivity. Qed.
Lemma int_sum : forall n f, (forall i, i < n -> is_int (f i)) -> is_int (sum n f).
Proof.
  induction n as [|n IH]; intros f H; cbn [sum].
  - exists 0%Z. symmetry. apply of_Z_0.
  - apply int_add; [apply IH; intros; apply H; lia|apply H; lia].
Qed.

(* ------------------------------------------- subtraction of a column *)

Definition subcol (A : matrix) (k j : nat) (r : Qc) : matrix :=
  fun i l => if l =? k then (A i k - r * A i j)%Qc else A i l.

Lemma to_Qc_subtract : forall v k j r i l,
  to_Qc (subtract_column v k j r) i l = subcol (to_Qc v) k j (of_Z r) i l.
Proof.
  intros v k j r i l. unfold to_Qc, subtract_column, subcol.
  destruct (l =? k); [|reflexivity]. rewrite of_Z_sub, of_Z_mul. reflexivity.
Qed.

Lemma subcol_star : forall m A k j r c, j < k ->
  forall i, i < m -> star m (subcol A k j r) c i = star m A c i.
Proof.
  intros m A k j r c Hjk. induction c as [c IH] using lt_wf_ind. intros i Hi.
  rewrite !star_eq.
  destruct (Nat.eq_dec c k) as [->|N].
  - unfold subcol at 1. rewrite Nat.eqb_refl.
    rewrite (sum_ext k _ (fun l => mu m A l k * star m A l i
                                   - r * (mu m A l j * star m A l i))%Qc).
    + rewrite sum_minus, sum_scale, (column_span m A j k i) by assumption. ring.
    + intros l Hl. rewrite (IH l Hl i Hi).
      assert (E : mu m (subcol A k j r) l k = (mu m A l k - r * mu m A l j)%Qc).
      { unfold mu. rewrite <- coef_minus. apply coef_ext.
        - intros; apply IH; assumption.
        - intros x _. unfold subcol. rewrite Nat.eqb_refl. reflexivity. }
      rewrite E. ring.
  - unfold subcol at 1. destruct (Nat.eqb_spec c k); [contradiction|].
    f_equal. apply sum_ext. intros l Hl. rewrite (IH l Hl i Hi). f_equal.
    unfold mu. apply coef_ext.
    + intros; apply IH; assumption.
    + intros x _. unfold subcol. destruct (Nat.eqb_spec c k); [contradiction|reflexivity].
Qed.

Lemma subcol_mu : forall m A k j r l c, j < k ->
  mu m (subcol A k j r) l c
  = if c =? k then (mu m A l k - r * mu m A l j)%Qc else mu m A l c.
Proof.
  intros m A k j r l c H. unfold mu.
  destruct (Nat.eqb_spec c k) as [->|N].
  - rewrite <- coef_minus. apply coef_ext.
    + intros; apply subcol_star; assumption.
    + intros x _. unfold subcol. rewrite Nat.eqb_refl. reflexivity.
  - apply coef_ext.
    + intros; apply subcol_star; assumption.
    + intros x _. unfold subcol. destruct (Nat.eqb_spec c k); [contradiction|reflexivity].
Qed.

Lemma star_ext : forall m A B j,
  (forall c i, A i c = B i c) -> forall i, star m A j i = star m B j i.
Proof. intros. apply star_prefix. intros; apply H. Qed.
Lemma mu_ext : forall m A B l j,
  (forall c i, A i c = B i c) -> mu m A l j = mu m B l j.
Proof.
  intros m A B l j H. apply coef_ext; intros; [apply star_ext; intros; apply H|apply H].
Qed.

(* ------------------------------------------------------------- lattices *)

Lemma zsum_ext : forall n f g,
  (forall i, i < n -> f i = g i) -> zsum n f = zsum n g.
Proof.
  induction n as [|n IH]; intros f g H; cbn [zsum]; [reflexivity|].
  rewrite (IH f g), (H n) by (intros; try apply H; lia). reflexivity.
Qed.

Lemma zsum_update : forall n f j a, j < n ->
  zsum n (fun l => if l =? j then a else f l) = (zsum n f - f j + a)%Z.
Proof.
  induction n as [|n IH]; intros f j a H; [lia|]. cbn [zsum].
  destruct (Nat.eqb_spec n j) as [->|N].
  - rewrite (zsum_ext j _ f); [lia|].
    intros i Hi. destruct (Nat.eqb_spec i j); [lia|reflexivity].
  - rewrite IH by lia. lia.
Qed.

Lemma combination_subtract : forall n v k j r z i, j < n -> k < n -> j <> k ->
  combination n (subtract_column v k j r) z i
  = combination n v (fun l => if l =? j then (z j - r * z k)%Z else z l) i.
Proof.
  intros n v k j r z i Hj Hk N. unfold combination.
  rewrite (zsum_ext n _ (fun l => if l =? k then (z k * (v i k - r * v i j))%Z
                                  else (z l * v i l)%Z)).
  - rewrite zsum_update by assumption.
    rewrite (zsum_ext n (fun j0 => ((if (j0 =? j)%nat then (z j - r * z k)%Z else z j0) * v i j0)%Z)
      (fun l => if l =? j then ((z j - r * z k) * v i j)%Z else (z l * v i l)%Z)).
    + rewrite zsum_update by assumption. ring.
    + intros l _. destruct (Nat.eqb_spec l j) as [->|]; reflexivity.
  - intros l _. unfold subtract_column. destruct (Nat.eqb_spec l k) as [->|]; reflexivity.
Qed.

Lemma subtract_lattice : forall m n v k j r, j < n -> k < n -> j <> k ->
  same_lattice m n v (subtract_column v k j r).
Proof.
  intros m n v k j r Hj Hk N w. split; intros [z Hz].
  - exists (fun l => if l =? j then (z j + r * z k)%Z else z l).
    intros i Hi. rewrite Hz, combination_subtract by assumption.
    unfold combination. apply zsum_ext. intros l _. rewrite Nat.eqb_refl.
    destruct (Nat.eqb_spec l j) as [->|]; [|reflexivity].
    destruct (Nat.eqb_spec k j); [lia|]. ring.
  - exists (fun l => if l =? j then (z j - r * z k)%Z else z l).
    intros i Hi. rewrite Hz, combination_subtract by assumption. reflexivity.
Qed.

Lemma combination_swap : forall n v a b z i, a < n -> b < n ->
  combination n (swap_columns v a b) z i
  = combination n v (fun l => if l =? a then z b else if l =? b then z a else z l) i.
Proof.
  intros n v a b z i Ha Hb. unfold combination.
  destruct (Nat.eq_dec a b) as [->|N].
  - apply zsum_ext. intros l _. unfold swap_columns.
    destruct (Nat.eqb_spec l b) as [->|]; reflexivity.
  - rewrite (zsum_ext n _ (fun l => if l =? a then (z a * v i b)%Z
      else (fun l => if l =? b then (z b * v i a)%Z else (z l * v i l)%Z) l)).
    + rewrite zsum_update by assumption. rewrite zsum_update by assumption.
      rewrite (zsum_ext n (fun j => ((if (j =? a)%nat then z b else if (j =? b)%nat then z a else z j) * v i j)%Z)
        (fun l => if l =? a then (z b * v i a)%Z
          else (fun l => if l =? b then (z a * v i b)%Z else (z l * v i l)%Z) l)).
      * rewrite zsum_update by assumption. rewrite zsum_update by assumption.
        destruct (Nat.eqb_spec a b); [contradiction|]. ring.
      * intros l _. cbv beta. destruct (Nat.eqb_spec l a) as [->|]; [reflexivity|].
        destruct (Nat.eqb_spec l b) as [->|]; reflexivity.
    + intros l _. unfold swap_columns. cbv beta.
      destruct (Nat.eqb_spec l a) as [->|]; [reflexivity|].
      destruct (Nat.eqb_spec l b) as [->|]; reflexivity.
Qed.

Lemma swap_lattice : forall m n v a b, a < n -> b < n ->
  same_lattice m n v (swap_columns v a b).
Proof.
  intros m n v a b Ha Hb w. split; intros [z Hz].
  - exists (fun l => if l =? a then z b else if l =? b then z a else z l).
    intros i Hi. rewrite Hz, combination_swap by assumption.
    unfold combination. apply zsum_ext. intros l _. rewrite !Nat.eqb_refl.
    destruct (Nat.eqb_spec l a) as [->|]; destruct (Nat.eqb_spec b a) as [->|];
      rewrite ?Nat.eqb_refl; try reflexivity.
    + destruct (Nat.eqb_spec l a); [contradiction|reflexivity].
    + destruct (Nat.eqb_spec l b) as [->|]; reflexivity.
  - exists (fun l => if l =? a then z b else if l =? b then z a else z l).
    intros i Hi. rewrite Hz, combination_swap by assumption. reflexivity.
Qed.

Lemma same_lattice_refl : forall m n v, same_lattice m n v v.
Proof. intros m n v w. reflexivity. Qed.
Lemma same_lattice_trans : forall m n u v w,
  same_lattice m n u v -> same_lattice m n v w -> same_lattice m n u w.
Proof. intros m n u v w H1 H2 x. specialize (H1 x). specialize (H2 x). tauto. Qed.

(* --------------------------------------------------- the loop on j *)

Definition qr_ok (m n : nat) (v : zmatrix) (qr : matrix * matrix) :=
  (forall j i, j < n -> fst qr i j = star m (to_Qc v) j i) /\
  (forall l j, l < j < n -> snd qr l j = mu m (to_Qc v) l j).

Lemma qr_ok_gs : forall m n v junk,
  qr_ok m n v (UnitriangularGramSchmidt m n (to_Qc v) junk).
Proof.
  intros m n v junk.
  destruct (UnitriangularGramSchmidt m n (to_Qc v) junk) as [Q R] eqn:E.
  destruct (gram_schmidt_spec m n (to_Qc v) junk Q R E) as (H1 & H2 & _).
  split; assumption.
Qed.

Record reduces (m n k : nat) (v v' : zmatrix) : Prop := {
  rd_other : forall i c, c <> k -> v' i c = v i c;
  rd_star : forall c i, i < m -> star m (to_Qc v') c i = star m (to_Qc v) c i;
  rd_lattice : same_lattice m n v v'
}.

Lemma reduce_loop_spec : forall round junk m n k count v qr v' qr',
  round 0%Qc = 0%Z -> k < n -> count <= k -> qr_ok m n v qr ->
  reduce_loop round junk m n k count v qr = (v', qr') ->
  reduces m n k v v' /\ qr_ok m n v' qr' /\
  (rounds round ->
   (forall l, count <= l < k -> (Qcabs (mu m (to_Qc v) l k) <= half)%Qc) ->
   forall l, l < k -> (Qcabs (mu m (to_Qc v') l k) <= half)%Qc).
Proof.
  intros round junk m n k count; induction count as [|j IH];
    intros v qr v' qr' R0 Hk Hc Q E; cbn [reduce_loop] in E.
  - injection E as <- <-. split; [|split].
    + constructor; intros; try reflexivity; apply same_lattice_refl.
    + exact Q.
    + intros _ H l Hl. apply H. lia.
  - rewrite (proj2 Q j k) in E by lia.
    destruct (Z.eqb_spec (round (mu m (to_Qc v) j k)) 0) as [Z|N].
    + destruct (IH v qr v' qr' R0 Hk ltac:(lia) Q E) as (I1 & I2 & I3).
      split; [exact I1|]. split; [exact I2|]. intros HR H. apply I3; [exact HR|].
      intros l Hl. destruct (Nat.eq_dec l j) as [->|]; [|apply H; lia].
      pose proof (HR (mu m (to_Qc v) j k)) as X. rewrite Z, of_Z_0 in X.
      replace (mu m (to_Qc v) j k - 0)%Qc with (mu m (to_Qc v) j k) in X by ring. exact X.
    + set (r := round (mu m (to_Qc v) j k)) in *.
      set (v1 := subtract_column v k j r) in *.
      destruct (IH v1 _ v' qr' R0 Hk ltac:(lia) (qr_ok_gs m n v1 junk) E) as (I1 & I2 & I3).
      assert (S1 : forall c i, to_Qc v1 i c = subcol (to_Qc v) k j (of_Z r) i c)
        by (intros; apply to_Qc_subtract).
      split; [|split].
      * destruct I1 as [J1 J2 J3]. constructor.
        { intros i c Hcn. rewrite J1 by assumption. unfold v1, subtract_column.
          destruct (Nat.eqb_spec c k); [contradiction|reflexivity]. }
        { intros c i Hi. rewrite J2 by assumption.
          rewrite (star_ext m _ _ c S1). apply subcol_star; [lia|assumption]. }
        { eapply same_lattice_trans; [|exact J3]. apply subtract_lattice; lia. }
      * exact I2.
      * intros HR H. apply I3; [exact HR|]. intros l Hl.
        rewrite (mu_ext m _ _ l k S1), subcol_mu, Nat.eqb_refl by lia.
        destruct (Nat.eq_dec l j) as [->|].
        { assert (NZ : inner m (star m (to_Qc v) j) (star m (to_Qc v) j) <> 0%Qc).
          { intros Z. apply N. unfold r. unfold mu, coef.
            destruct (Qc_eq_dec _ 0); [exact R0|contradiction]. }
          rewrite (mu_diagonal m _ j NZ).
          pose proof (HR (mu m (to_Qc v) j k)) as X. fold r in X.
          replace (mu m (to_Qc v) j k - of_Z r * 1)%Qc
            with (mu m (to_Qc v) j k - of_Z r)%Qc by ring. exact X. }
        { rewrite (mu_above m _ l j) by lia.
          replace (mu m (to_Qc v) l k - of_Z r * 0)%Qc with (mu m (to_Qc v) l k) by ring.
          apply H. lia. }
Qed.

(* ------------------------------------------------------------ swaps *)

Lemma swap_star_below : forall m v k c i, c < k - 1 ->
  star m (to_Qc (swap_columns v (k - 1) k)) c i = star m (to_Qc v) c i.
Proof.
  intros m v k c i H. apply star_prefix. intros c' i' Hc'.
  unfold to_Qc, swap_columns.
  destruct (Nat.eqb_spec c' (k - 1)); [lia|]. destruct (Nat.eqb_spec c' k); [lia|reflexivity].
Qed.

Lemma swap_star : forall m v k i, 0 < k ->
  star m (to_Qc (swap_columns v (k - 1) k)) (k - 1) i
  = (star m (to_Qc v) k i + mu m (to_Qc v) (k - 1) k * star m (to_Qc v) (k - 1) i)%Qc.
Proof.
  intros m v k i Hk. rewrite star_eq, (star_eq m (to_Qc v) k).
  replace k with (S (k - 1)) at 6 by lia. cbn [sum].
  assert (E : forall i, to_Qc (swap_columns v (k - 1) k) i (k - 1) = to_Qc v i k).
  { intros x. unfold to_Qc, swap_columns. rewrite Nat.eqb_refl. reflexivity. }
  rewrite E.
  rewrite (sum_ext (k - 1) _ (fun l => mu m (to_Qc v) l k * star m (to_Qc v) l i)%Qc).
  - ring.
  - intros l Hl. rewrite swap_star_below by assumption. f_equal.
    unfold mu. apply coef_ext; intros.
    + apply swap_star_below. assumption.
    + apply E.
Qed.

Lemma inner_combination : forall m x y c,
  inner m x y = 0%Qc ->
  inner m (fun i => x i + c * y i)%Qc (fun i => x i + c * y i)%Qc
  = (inner m x x + c * c * inner m y y)%Qc.
Proof.
  intros m x y c H.
  rewrite (inner_plus_r m _ x (fun i => (c * y i)%Qc)), inner_scale_r.
  rewrite (inner_sym m _ x), (inner_sym m _ y).
  rewrite (inner_plus_r m x x (fun i => (c * y i)%Qc)), inner_scale_r.
  rewrite (inner_plus_r m y x (fun i => (c * y i)%Qc)), inner_scale_r.
  rewrite (inner_sym m y x), H. ring.
Qed.

Lemma swap_norm : forall m v k, 0 < k ->
  inner m (star m (to_Qc (swap_columns v (k - 1) k)) (k - 1))
          (star m (to_Qc (swap_columns v (k - 1) k)) (k - 1))
  = (inner m (star m (to_Qc v) k) (star m (to_Qc v) k)
     + mu m (to_Qc v) (k - 1) k * mu m (to_Qc v) (k - 1) k
       * inner m (star m (to_Qc v) (k - 1)) (star m (to_Qc v) (k - 1)))%Qc.
Proof.
  intros m v k Hk.
  rewrite <- inner_combination by (apply star_orthogonal; lia).
  apply inner_ext; intros; apply swap_star; assumption.
Qed.

(* ------------------------------------------------------------- the step *)

Lemma reduced_prefix : forall m k v v',
  (forall i c, c < k -> v' i c = v i c) -> lll_reduced m k v -> lll_reduced m k v'.
Proof.
  intros m k v v' H [R1 R2].
  assert (P : forall j, j < k -> forall c i, c <= j -> to_Qc v' i c = to_Qc v i c).
  { intros j Hj c i Hc. unfold to_Qc. rewrite H by lia. reflexivity. }
  assert (M : forall l j, l < j < k -> mu m (to_Qc v') l j = mu m (to_Qc v) l j).
  { intros l j Hlj. apply mu_prefix; [lia|]. intros c i Hc. apply (P j); lia. }
  assert (S : forall j, j < k -> forall i, star m (to_Qc v') j i = star m (to_Qc v) j i).
  { intros j Hj. apply star_prefix. intros c i Hc. apply (P j); lia. }
  split.
  - intros i j Hij. rewrite M by lia. apply R1. assumption.
  - intros j Hj. rewrite M by lia.
    rewrite (inner_ext m (star m (to_Qc v') (j - 1)) (star m (to_Qc v) (j - 1))
               (star m (to_Qc v') (j - 1)) (star m (to_Qc v) (j - 1)))
      by (intros; apply S; lia).
    rewrite (inner_ext m (star m (to_Qc v') j) (star m (to_Qc v) j)
               (star m (to_Qc v') j) (star m (to_Qc v) j)) by (intros; apply S; lia).
    apply R2. assumption.
Qed.

Lemma reduced_less : forall m k k' v, k' <= k -> lll_reduced m k v -> lll_reduced m k' v.
Proof.
  intros m k k' v H [R1 R2]. split; intros; [apply R1|apply R2]; lia.
Qed.

Lemma lll_step_spec : forall round junk m n k v k' v',
  round 0%Qc = 0%Z -> 0 < k < n -> lll_step round junk m n k v = (k', v') ->
  0 < k' <= n /\ same_lattice m n v v' /\
  (rounds round -> lll_reduced m k v -> lll_reduced m k' v') /\
  ((k' = S k /\ forall c i, i < m -> star m (to_Qc v') c i = star m (to_Qc v) c i) \/
   (k' = Nat.max (k - 1) 1 /\
    (forall c i, c < k - 1 -> i < m -> star m (to_Qc v') c i = star m (to_Qc v) c i) /\
    (inner m (star m (to_Qc v') (k - 1)) (star m (to_Qc v') (k - 1))
     < three_quarters * inner m (star m (to_Qc v) (k - 1)) (star m (to_Qc v) (k - 1)))%Qc)).
Proof.
  intros round junk m n k v k' v' R0 Hk E. unfold lll_step in E.
  destruct (reduce_loop round junk m n k k v _) as [v1 qr1] eqn:EL.
  destruct (reduce_loop_spec round junk m n k k v _ v1 qr1 R0 ltac:(lia) ltac:(lia)
              (qr_ok_gs m n v junk) EL) as (I1 & [Q1 Q2] & I3).
  destruct I1 as [J1 J2 J3].
  rewrite !dot_inner in E. unfold column in E.
  rewrite (Q2 (k - 1) k) in E by lia.
  rewrite (inner_ext m (fun i => fst qr1 i k) (star m (to_Qc v1) k)
             (fun i => fst qr1 i k) (star m (to_Qc v1) k)) in E by (intros; apply Q1; lia).
  rewrite (inner_ext m (fun i => fst qr1 i (k - 1)) (star m (to_Qc v1) (k - 1))
             (fun i => fst qr1 i (k - 1)) (star m (to_Qc v1) (k - 1))) in E
    by (intros; apply Q1; lia).
  assert (RP : lll_reduced m k v -> lll_reduced m k v1).
  { apply reduced_prefix. intros i c Hc. apply J1. lia. }
  destruct (Qclt_le_dec _ _) as [L|L]; injection E as <- <-.
  - split; [lia|]. split; [|split].
    + eapply same_lattice_trans; [exact J3|]. apply swap_lattice; lia.
    + intros HR R. destruct (Nat.eq_dec k 1) as [->|N1].
      { cbn. split; intros; lia. }
      apply (reduced_prefix m _ v1).
      * intros i c Hc. unfold swap_columns.
        destruct (Nat.eqb_spec c (k - 1)) as [->|].
        { exfalso. lia. }
        { destruct (Nat.eqb_spec c k); [lia|reflexivity]. }
      * apply (reduced_less m k); [lia|]. apply RP. exact R.
    + right. split; [reflexivity|]. split.
      * intros c i Hc Hi. rewrite swap_star_below by assumption. apply J2. assumption.
      * rewrite swap_norm by lia.
        rewrite (inner_ext m (star m (to_Qc v) (k - 1)) (star m (to_Qc v1) (k - 1))
                   (star m (to_Qc v) (k - 1)) (star m (to_Qc v1) (k - 1)))
          by (intros; symmetry; apply J2; assumption).
        revert L. generalize (mu m (to_Qc v1) (k - 1) k) as u.
        generalize (inner m (star m (to_Qc v1) k) (star m (to_Qc v1) k)) as a.
        generalize (inner m (star m (to_Qc v1) (k - 1)) (star m (to_Qc v1) (k - 1))) as b.
        intros b a u L. toQ. lra.
  - split; [lia|]. split; [exact J3|]. split.
    + intros HR R. pose proof (RP R) as [R1 R2]. split.
      * intros i j Hij. destruct (Nat.eq_dec j k) as [->|].
        { apply I3; [exact HR|intros; lia|lia]. }
        { apply R1. lia. }
      * intros j Hj. destruct (Nat.eq_dec j k) as [->|]; [exact L|apply R2; lia].
    + left. split; [reflexivity|]. exact J2.
Qed.
