(** The finite differences, the tables, and one step of the linear multistep integrators. *)
From Coq Require Import Reals ZArith QArith Qreals List Bool Arith Lra Lia.
From Verif Require Import OneStep_Model Multistep_Tables Multistep_Model Multistep_Proofs.
Import ListNotations.
Open Scope R_scope.

(** * Sums *)
Lemma sum_to_scal : forall n k f, sum_to n (fun i => k * f i) = k * sum_to n f.
Proof. induction n as [|n IH]; intros; [unfold sum_to; cbn; ring|]. rewrite !sum_to_S, (IH k (fun i => f (S i))). ring. Qed.
Lemma sum_to_add : forall n f g, sum_to n (fun i => f i + g i) = sum_to n f + sum_to n g.
Proof.
  induction n as [|n IH]; intros; [unfold sum_to; cbn; ring|].
  rewrite !sum_to_S, (IH (fun i => f (S i)) (fun i => g (S i))). ring.
Qed.
Lemma sum_to_last : forall n f, sum_to (S n) f = sum_to n f + f n.
Proof.
  induction n as [|n IH]; intros; [unfold sum_to; cbn; ring|]. rewrite sum_to_S, (IH (fun i => f (S i))), sum_to_S. ring.
Qed.
Lemma sum_to_split : forall m n f, sum_to (m + n) f = sum_to m f + sum_to n (fun i => f (m + i)%nat).
Proof.
  induction m as [|m IH]; intros; [change (sum_to n f = 0 + sum_to n f); ring|].
  cbn [plus]. rewrite !sum_to_S, (IH n (fun i => f (S i))). ring.
Qed.
Lemma sum_to_rev : forall n f, sum_to n f = sum_to n (fun i => f (n - 1 - i)%nat).
Proof.
  induction n as [|n IH]; intros; [reflexivity|]. rewrite sum_to_last, sum_to_S, IH.
  rewrite (sum_to_ext n (fun i => f (S n - 1 - S i)%nat) (fun i => f (n - 1 - i)%nat)).
  - replace (S n - 1 - 0)%nat with n by lia. ring.
  - intros i Hi. f_equal. lia.
Qed.
Lemma fold_sum : forall (f : nat -> R) n s z, fold_left (fun sum i => sum + f i) (seq s n) z = z + sum_to n (fun i => f (s + i)%nat).
Proof.
  induction n as [|n IH]; intros; [unfold sum_to; cbn; ring|]. cbn [seq fold_left]. rewrite IH, sum_to_S, Nat.add_0_r.
  rewrite (sum_to_ext n (fun i => f (S s + i)%nat) (fun i => f (s + S i)%nat)); [ring|]. intros. f_equal. lia.
Qed.

(** * Finite differences *)
Definition fd_terms (n offset : nat) : list Term :=
  (Z.of_nat offset, 1%nat, (- nth (n - 1) Denominators 0)%Z)
  :: terms 0 1 0 (map (fun j => nth j (nth offset (nth (n - 1) Numerators []) []) 0%Z) (seq 0 n)).
Lemma fd_check : forallb (fun n => forallb (fun offset =>
    exact_up_to (n - 1) (fd_terms n offset) && negb (Z.eqb (at_mono (fd_terms n offset) n) 0)
    && negb (Z.eqb (nth (n - 1) Denominators 0%Z) 0)) (seq 0 n)) (seq 1 9) = true.
Proof. vm_compute. reflexivity. Qed.
Lemma fd_value : forall n offset values h, (1 <= n <= 9)%nat -> (offset < n)%nat -> length values = n ->
  FiniteDifference values h offset = sum_to n (fun j => fd_numerator n offset j * nth j values 0) / (fd_denominator n * h).
Proof.
  intros n offset values h Hn Ho L. subst n.
  let rec split n := match n with O => exfalso; cbn in Hn; lia | S ?m => destruct values as [|? values]; [|split m] end in
  split 10%nat; try (exfalso; cbn in Hn; lia); cbn [length] in Ho;
  let rec cases n := match n with
    | O => exfalso; lia
    | S ?m => destruct offset as [|offset];
              [cbv [FiniteDifference length fd_numerator Numerators sum_to map seq fold_right fold_left nth Nat.eqb Nat.modulo
                    Nat.divmod Nat.div Nat.sub Nat.add fst snd andb]; unfold Rdiv; f_equal; ring
              |first [exfalso; lia|cases m]]
    end in cases 9%nat.
Qed.
Lemma fd_both : forall n offset, (1 <= n <= 9)%nat -> (offset < n)%nat ->
  exact_up_to (n - 1) (fd_terms n offset) = true /\ at_mono (fd_terms n offset) n <> 0%Z /\ fd_denominator n <> 0.
Proof.
  intros n offset Hn Ho. pose proof fd_check as C. rewrite forallb_forall in C. specialize (C n). rewrite in_seq in C.
  specialize (C ltac:(lia)). rewrite forallb_forall in C. specialize (C offset). rewrite in_seq in C. specialize (C ltac:(lia)).
  apply andb_prop in C. destruct C as [C C3]. apply andb_prop in C. destruct C as [C1 C2].
  split; [exact C1|]. split.
  - intros E. rewrite E in C2. discriminate.
  - unfold fd_denominator. apply IZR_neq. intros E. rewrite E in C3. discriminate.
Qed.
Lemma fd_formula : forall n offset p p1 p2 x0 h, (1 <= n <= 9)%nat -> (offset < n)%nat ->
  formula (fd_terms n offset) p p1 p2 x0 h
  = sum_to n (fun j => fd_numerator n offset j * p (x0 + INR j * h)) - fd_denominator n * (h * p1 (x0 + INR offset * h)).
Proof.
  intros n offset p p1 p2 x0 h Hn Ho. unfold fd_terms, formula. cbn [map fold_right].
  match goal with |- context [fold_right Rplus 0 (map _ (terms ?o ?s ?d ?l))] =>
    pose proof (terms_formula o s l d p p1 p2 x0 h) as T end.
  unfold formula in T. rewrite T. rewrite map_length, seq_length.
  rewrite (sum_to_ext n _ (fun j => fd_numerator n offset j * p (x0 + INR j * h))).
  - cbn [pick pow]. rewrite opp_IZR, <- INR_IZR_INZ. unfold fd_denominator.
    replace (h * INR offset) with (INR offset * h) by ring. ring.
  - intros i Hi. cbn [pick]. unfold fd_numerator.
    rewrite (nth_indep _ 0%Z ((fun j => nth j (nth offset (nth (n - 1) Numerators []) []) 0%Z) 0%nat)) by
      (rewrite map_length, seq_length; exact Hi).
    rewrite (map_nth (fun j => nth j (nth offset (nth (n - 1) Numerators []) []) 0%Z) (seq 0 n)), seq_nth by exact Hi.
    cbn [plus]. f_equal. f_equal. ring.
Qed.
Lemma sample_length : forall (p : R -> R) x0 h n, length (map (fun j => p (x0 + INR j * h)) (seq 0 n)) = n.
Proof. intros. rewrite map_length, seq_length. reflexivity. Qed.
Lemma sample_nth : forall (p : R -> R) x0 h n j, (j < n)%nat ->
  nth j (map (fun j => p (x0 + INR j * h)) (seq 0 n)) 0 = p (x0 + INR j * h).
Proof.
  intros p x0 h n j H. rewrite (nth_indep _ 0 ((fun j => p (x0 + INR j * h)) 0%nat)) by (rewrite sample_length; exact H).
  rewrite (map_nth (fun j => p (x0 + INR j * h)) (seq 0 n)), seq_nth by exact H. reflexivity.
Qed.
Lemma finite_difference_exact : forall n offset p p1 x0 h, (1 <= n <= 9)%nat -> (offset < n)%nat -> polynomial (n - 1) p ->
  derivative p p1 -> h <> 0 ->
  FiniteDifference (map (fun j => p (x0 + INR j * h)) (seq 0 n)) h offset = p1 (x0 + INR offset * h).
Proof.
  intros n offset p p1 x0 h Hn Ho P D Hh. destruct (fd_both n offset Hn Ho) as (C & _ & Dn).
  destruct (second_derivative _ p p1 P D) as [p2 D2].
  pose proof (formula_exact _ _ p p1 p2 x0 h C P D D2) as E. rewrite fd_formula in E by assumption.
  rewrite (fd_value n offset) by (try assumption; apply sample_length).
  rewrite (sum_to_ext n _ (fun j => fd_numerator n offset j * p (x0 + INR j * h))) by
    (intros j Hj; rewrite sample_nth by exact Hj; reflexivity).
  apply Rminus_diag_uniq in E. rewrite E. field. split; assumption.
Qed.
(** The degree cannot be larger. *)
Lemma finite_difference_sharp : forall n offset h, (1 <= n <= 9)%nat -> (offset < n)%nat -> h <> 0 ->
  exists p p1, polynomial n p /\ derivative p p1 /\
    FiniteDifference (map (fun j => p (0 + INR j * h)) (seq 0 n)) h offset <> p1 (0 + INR offset * h).
Proof.
  intros n offset h Hn Ho Hh. destruct (fd_both n offset Hn Ho) as (C & N & Dn).
  exists (fun x => x ^ n), (fun x => dmono 1 x n). destruct (power_derivatives n) as [D1 D2].
  split; [apply power_polynomial|]. split; [exact D1|].
  rewrite (fd_value n offset) by (try assumption; apply (sample_length (fun x => x ^ n))).
  rewrite (sum_to_ext n _ (fun j => fd_numerator n offset j * (0 + INR j * h) ^ n)) by
    (intros j Hj; rewrite (sample_nth (fun x => x ^ n)) by exact Hj; reflexivity).
  apply andb_prop in C. destruct C as [C _].
  pose proof (formula_power (fd_terms n offset) n h C) as F. rewrite fd_formula in F by assumption.
  intros E. apply (Rmult_eq_compat_r (fd_denominator n * h)) in E. unfold Rdiv in E.
  rewrite Rmult_assoc, Rinv_l, Rmult_1_r in E by (apply Rmult_integral_contrapositive; split; assumption).
  rewrite E in F. assert (Z0 : h ^ n * IZR (at_mono (fd_terms n offset) n) = 0) by (rewrite <- F; ring).
  apply Rmult_integral in Z0. destruct Z0 as [Z0|Z0].
  - exact (pow_nonzero h n Hh Z0).
  - apply N. apply eq_IZR. exact Z0.
Qed.

(** * The tables of Adams-Moulton and of Cohen, Hubbard and Oesterwinter *)
Definition am_terms (m : Coefficients) : list Term :=
  [(0%Z, 0%nat, (- denominator m)%Z); ((-1)%Z, 0%nat, denominator m)] ++ terms 1 (-1) 0 (numerators m).
Lemma am_check : forallb (fun n => match nth_error AdamsMoultonOrder (n - 1) with
    | Some m => exact_up_to n (am_terms m) && negb (Z.eqb (at_mono (am_terms m) (S n)) 0)
                && negb (Z.eqb (denominator m) 0) && Nat.eqb (length (numerators m)) n
    | None => false end) (seq 1 14) = true.
Proof. vm_compute. reflexivity. Qed.
Definition cho_terms (m : Coefficients) : list Term :=
  [(0%Z, 1%nat, (- denominator m)%Z); (0%Z, 0%nat, denominator m); ((-1)%Z, 0%nat, (- denominator m)%Z)]
  ++ terms 2 (-1) 0 (numerators m).
Lemma cho_check : forallb (fun n => match nth_error CohenHubbardOesterwinterOrder (n - 1) with
    | Some m => exact_up_to (S n) (cho_terms m) && negb (Z.eqb (at_mono (cho_terms m) (S (S n))) 0)
                && negb (Z.eqb (denominator m) 0) && Nat.eqb (length (numerators m)) n
    | None => false end) (seq 1 15) = true.
Proof. vm_compute. reflexivity. Qed.
Lemma table_check : forall (table : list Coefficients) N (test : nat -> Coefficients -> bool),
  forallb (fun n => match nth_error table (n - 1) with Some m => test n m | None => false end) (seq 1 N) = true ->
  forall n, (1 <= n <= N)%nat -> exists m, nth_error table (n - 1) = Some m /\ test n m = true.
Proof.
  intros table N test C n Hn. rewrite forallb_forall in C. specialize (C n). rewrite in_seq in C. specialize (C ltac:(lia)).
  destruct (nth_error table (n - 1)) as [m|]; [|discriminate]. exists m. auto.
Qed.
(** The formulae. *)
Definition am_formula (m : Coefficients) (y1 : R -> R) (x h : R) : R :=
  h * sum_to (length (numerators m)) (fun i => IZR (nth i (numerators m) 0%Z) * y1 (x - INR i * h)) / IZR (denominator m).
Definition cho_formula (m : Coefficients) (q q2 : R -> R) (x h : R) : R :=
  (q x - q (x - h)) / h
  + h * sum_to (length (numerators m)) (fun i => IZR (nth i (numerators m) 0%Z) * q2 (x - INR i * h)) / IZR (denominator m).
Lemma terms_down : forall o l p p1 p2 x h,
  formula (terms o (-1) 0 l) p p1 p2 x h = h ^ o * sum_to (length l) (fun i => IZR (nth i l 0%Z) * pick p p1 p2 o (x - INR i * h)).
Proof.
  intros. rewrite terms_formula. f_equal. apply sum_to_ext. intros i _. f_equal. f_equal. ring.
Qed.
Lemma am_value : forall m p p1 p2 x h, formula (am_terms m) p p1 p2 x h
  = h * sum_to (length (numerators m)) (fun i => IZR (nth i (numerators m) 0%Z) * p1 (x - INR i * h))
    - IZR (denominator m) * (p x - p (x - h)).
Proof.
  intros. unfold am_terms. rewrite formula_app, terms_down. unfold formula. cbn [map fold_right pick pow].
  rewrite opp_IZR. replace (x + h * 0) with x by ring. replace (x + h * -1) with (x - h) by ring. ring.
Qed.
Lemma cho_value : forall m p p1 p2 x h, formula (cho_terms m) p p1 p2 x h
  = h * (h * sum_to (length (numerators m)) (fun i => IZR (nth i (numerators m) 0%Z) * p2 (x - INR i * h)))
    + IZR (denominator m) * (p x - p (x - h)) - IZR (denominator m) * (h * p1 x).
Proof.
  intros. unfold cho_terms. rewrite formula_app, terms_down. unfold formula. cbn [map fold_right pick pow].
  rewrite opp_IZR. replace (x + h * 0) with x by ring. replace (x + h * -1) with (x - h) by ring. ring.
Qed.
Lemma adams_moulton : forall n, (1 <= n <= 14)%nat -> exists m,
  nth_error AdamsMoultonOrder (n - 1) = Some m /\ length (numerators m) = n /\
  (forall y y1 x h, polynomial n y -> derivative y y1 -> y x - y (x - h) = am_formula m y1 x h) /\
  (forall h, h <> 0 -> exists y y1, polynomial (S n) y /\ derivative y y1 /\ y 0 - y (0 - h) <> am_formula m y1 0 h).
Proof.
  intros n Hn. destruct (table_check _ _ _ am_check n Hn) as [m [E C]]. exists m. split; [exact E|].
  apply andb_prop in C. destruct C as [C C4]. apply andb_prop in C. destruct C as [C C3].
  apply andb_prop in C. destruct C as [C1 C2]. apply Nat.eqb_eq in C4. split; [exact C4|].
  assert (Dn : IZR (denominator m) <> 0) by (apply IZR_neq; intros Z0; rewrite Z0 in C3; discriminate).
  split.
  - intros y y1 x h P D. destruct (second_derivative _ y y1 P D) as [y2 D2].
    pose proof (formula_exact _ _ y y1 y2 x h C1 P D D2) as F. rewrite am_value in F. unfold am_formula.
    apply Rminus_diag_uniq in F. rewrite F. field. exact Dn.
  - intros h Hh. exists (fun x => x ^ S n), (fun x => dmono 1 x (S n)). destruct (power_derivatives (S n)) as [D1 D2].
    split; [apply power_polynomial|]. split; [exact D1|]. apply andb_prop in C1. destruct C1 as [C1 _].
    pose proof (formula_power (am_terms m) (S n) h C1) as F. rewrite am_value in F. intros Eq.
    assert (Z0 : h ^ S n * IZR (at_mono (am_terms m) (S n)) = 0).
    { rewrite <- F, Eq. unfold am_formula. field. exact Dn. }
    apply Rmult_integral in Z0. destruct Z0 as [Z0|Z0]; [exact (pow_nonzero h (S n) Hh Z0)|].
    apply eq_IZR in Z0. rewrite Z0 in C2. discriminate.
Qed.
Lemma cohen_hubbard_oesterwinter : forall n, (1 <= n <= 15)%nat -> exists m,
  nth_error CohenHubbardOesterwinterOrder (n - 1) = Some m /\ length (numerators m) = n /\
  (forall q q1 q2 x h, polynomial (S n) q -> derivative q q1 -> derivative q1 q2 -> h <> 0 -> cho_formula m q q2 x h = q1 x) /\
  (forall h, h <> 0 -> exists q q1 q2,
     polynomial (S (S n)) q /\ derivative q q1 /\ derivative q1 q2 /\ cho_formula m q q2 0 h <> q1 0).
Proof.
  intros n Hn. destruct (table_check _ _ _ cho_check n Hn) as [m [E C]]. exists m. split; [exact E|].
  apply andb_prop in C. destruct C as [C C4]. apply andb_prop in C. destruct C as [C C3].
  apply andb_prop in C. destruct C as [C1 C2]. apply Nat.eqb_eq in C4. split; [exact C4|].
  assert (Dn : IZR (denominator m) <> 0) by (apply IZR_neq; intros Z0; rewrite Z0 in C3; discriminate).
  split.
  - intros q q1 q2 x h P D D2 Hh.
    pose proof (formula_exact _ _ q q1 q2 x h C1 P D D2) as F. rewrite cho_value in F. unfold cho_formula.
    set (sum := sum_to _ _) in *. clearbody sum. apply Rminus_diag_uniq in F.
    apply (Rmult_eq_reg_l (IZR (denominator m) * h)); [|apply Rmult_integral_contrapositive; split; assumption].
    rewrite (Rmult_assoc _ h (q1 x)), <- F. field. split; assumption.
  - intros h Hh. destruct (power_derivatives (S (S n))) as [D1 D2].
    exists (fun x => x ^ S (S n)), (fun x => dmono 1 x (S (S n))), (fun x => dmono 2 x (S (S n))).
    split; [apply power_polynomial|]. split; [exact D1|]. split; [exact D2|]. apply andb_prop in C1. destruct C1 as [C1 _].
    pose proof (formula_power (cho_terms m) (S (S n)) h C1) as F. rewrite cho_value in F. intros Eq.
    assert (Z0 : h ^ S (S n) * IZR (at_mono (cho_terms m) (S (S n))) = 0).
    { rewrite <- F, <- Eq. unfold cho_formula. set (sum := sum_to _ _). clearbody sum.
      set (u := (fun x => x ^ S (S n)) 0). set (v := (fun x => x ^ S (S n)) (0 - h)). clearbody u v. field. split; assumption. }
    apply Rmult_integral in Z0. destruct Z0 as [Z0|Z0]; [exact (pow_nonzero h _ Hh Z0)|].
    apply eq_IZR in Z0. rewrite Z0 in C2. discriminate.
Qed.
