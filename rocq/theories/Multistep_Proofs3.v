(** One step of the linear multistep integrators. *)
From Coq Require Import Reals ZArith QArith Qreals List Bool Arith Lra Lia.
From Verif Require Import OneStep_Model Multistep_Tables Multistep_Model Multistep_Proofs Multistep_Proofs2.
Import ListNotations.
Open Scope R_scope.

Lemma terms_seq : forall o s g n p p1 p2 x0 h,
  formula (terms o s 0 (map g (seq 0 n))) p p1 p2 x0 h
  = h ^ o * sum_to n (fun i => IZR (g i) * pick p p1 p2 o (x0 + h * (IZR s * INR i))).
Proof.
  intros. rewrite terms_formula, map_length, seq_length. f_equal. apply sum_to_ext. intros i Hi.
  rewrite (nth_indep _ 0%Z (g 0%nat)) by (rewrite map_length, seq_length; exact Hi).
  rewrite map_nth, seq_nth by exact Hi. cbn [plus]. f_equal. f_equal. ring.
Qed.

(** * The coefficients *)
Definition twice (q : Q) : Z := (2 * Qnum q / Zpos (Qden q))%Z.
Definition halves (q : Q) : bool := Qeq_bool (twice q # 2) q.
Lemma twice_R : forall q, halves q = true -> 2 * Q2R q = IZR (twice q).
Proof.
  intros q H. apply Qeq_bool_eq in H. apply Qeq_eqR in H. rewrite <- H. unfold Q2R. cbn [Qnum Qden].
  field.
Qed.
(** The formula of a method where the coefficients of the point j are [a j] and [b j] / [den], in multiples of 2 [den]. *)
Definition lm_terms (o : nat) (s : Z) (n : nat) (a : nat -> Q) (b : nat -> Z) (den : Z) : list Term :=
  terms 0 s 0 (map (fun j => (twice (a j) * den)%Z) (seq 0 n)) ++ terms o s 0 (map (fun j => (-2 * b j)%Z) (seq 0 n)).
Lemma lm_value : forall o s n a b den p p1 p2 x0 h, (forall j, (j < n)%nat -> halves (a j) = true) ->
  formula (lm_terms o s n a b den) p p1 p2 x0 h
  = 2 * (IZR den * sum_to n (fun j => Q2R (a j) * p (x0 + h * (IZR s * INR j)))
         - h ^ o * sum_to n (fun j => IZR (b j) * pick p p1 p2 o (x0 + h * (IZR s * INR j)))).
Proof.
  intros o s n a b den p p1 p2 x0 h H. unfold lm_terms. rewrite formula_app, !terms_seq. cbn [pick pow]. rewrite Rmult_1_l.
  rewrite (sum_to_ext n _ (fun j => 2 * IZR den * (Q2R (a j) * p (x0 + h * (IZR s * INR j))))).
  - rewrite sum_to_scal.
    rewrite (sum_to_ext n (fun i => IZR (-2 * b i) * _)
               (fun j => -2 * (IZR (b j) * pick p p1 p2 o (x0 + h * (IZR s * INR j))))).
    + rewrite sum_to_scal. ring.
    + intros i _. rewrite mult_IZR. ring.
  - intros i Hi. rewrite mult_IZR, <- twice_R by (apply H; exact Hi). ring.
Qed.

(** * ExplicitLinearMultistepIntegrator *)
Definition e_alpha (m : Multistep) (j : nat) : Q := nth j (alpha m) 0%Q.
Definition e_beta (m : Multistep) (j : nat) : Z := nth j (beta_numerator m) 0%Z.
Definition e_terms (m : Multistep) : list Term := lm_terms 1 (-1) (S (order m)) (e_alpha m) (e_beta m) (beta_denominator m).
Definition well_formed (m : Multistep) (a : nat -> Q) (b : nat -> Z) : bool :=
  forallb (fun j => halves (a j)) (seq 0 (S (order m))) && Qeq_bool (a 0%nat) 1 && Z.eqb (b 0%nat) 0
  && negb (Z.eqb (beta_denominator m) 0) && Nat.leb 2 (order m).
Lemma explicit_check : forallb (fun m => well_formed m (e_alpha m) (e_beta m)
    && exact_up_to (order m) (e_terms m) && negb (Z.eqb (at_mono (e_terms m) (S (order m))) 0)) explicit_methods = true.
Proof. vm_compute. reflexivity. Qed.
Lemma well_formed_spec : forall m a b, well_formed m a b = true ->
  (forall j, (j < S (order m))%nat -> halves (a j) = true) /\ Q2R (a 0%nat) = 1 /\ b 0%nat = 0%Z /\ beta_denominator_ m <> 0
  /\ (2 <= order m)%nat.
Proof.
  intros m a b H. unfold well_formed in H. repeat rewrite andb_true_iff in H.
  destruct H as ((((H1 & H2) & H3) & H4) & H5). rewrite forallb_forall in H1.
  split; [intros j Hj; apply H1; apply in_seq; lia|].
  split; [apply Qeq_bool_eq in H2; apply Qeq_eqR in H2; rewrite H2; unfold Q2R; cbn; field|].
  split; [apply Z.eqb_eq; exact H3|]. split; [|apply Nat.leb_le; exact H5].
  unfold beta_denominator_. apply IZR_neq. intros E. rewrite E in H4. discriminate.
Qed.

Lemma e_sums_gen : forall m steps n s y f,
  let r := fold_left (fun '(sum_y, sum_f) j =>
    let step := nth (j - 1) steps e_default in
    (vadd sum_y (vscal (- alpha_ m j) (e_y step)), vadd sum_f (vscal (beta_numerator_ m j) (e_yd step)))) (seq (S s) n) (y, f) in
  forall d, fst r d = y d - sum_to n (fun i => alpha_ m (S (s + i)) * e_y (nth (s + i) steps e_default) d)
         /\ snd r d = f d + sum_to n (fun i => beta_numerator_ m (S (s + i)) * e_yd (nth (s + i) steps e_default) d).
Proof.
  intros m steps n. induction n as [|n IH]; intros s y f r d.
  - unfold r, sum_to. cbn. split; ring.
  - subst r. cbn [seq fold_left]. cbv zeta. replace (S s - 1)%nat with s by lia. cbv zeta in IH.
    destruct (IH (S s) (vadd y (vscal (- alpha_ m (S s)) (e_y (nth s steps e_default))))
                 (vadd f (vscal (beta_numerator_ m (S s)) (e_yd (nth s steps e_default)))) d) as [A B].
    rewrite A, B, !sum_to_S, !Nat.add_0_r. unfold vadd, vscal.
    rewrite (sum_to_ext n (fun i => alpha_ m (S (S s + i)) * _)
              (fun i => alpha_ m (S (s + S i)) * e_y (nth (s + S i) steps e_default) d))
      by (intros i _; replace (S s + i)%nat with (s + S i)%nat by lia; reflexivity).
    rewrite (sum_to_ext n (fun i => beta_numerator_ m (S (S s + i)) * _)
              (fun i => beta_numerator_ m (S (s + S i)) * e_yd (nth (s + S i) steps e_default) d))
      by (intros i _; replace (S s + i)%nat with (s + S i)%nat by lia; reflexivity).
    split; ring.
Qed.
Lemma e_sums_spec : forall m steps d,
  fst (e_sums m steps) d = - sum_to (order m) (fun i => alpha_ m (S i) * e_y (nth i (rev steps) e_default) d)
  /\ snd (e_sums m steps) d = sum_to (order m) (fun i => beta_numerator_ m (S i) * e_yd (nth i (rev steps) e_default) d).
Proof.
  intros m steps d. destruct (e_sums_gen m (rev steps) (order m) 0 vzero vzero d) as [A B]. cbn [plus] in A, B.
  split; [refine (eq_trans A _)|refine (eq_trans B _)]; unfold vzero; ring.
Qed.
(** The recurrence satisfied by the new step; the index j = 0 stands for the new step. *)
Lemma e_step_y : forall m f h steps s d,
  e_y (fst (e_step m f h steps s)) d
  = - sum_to (order m) (fun i => alpha_ m (S i) * e_y (nth i (rev steps) e_default) d)
    + h * sum_to (order m) (fun i => beta_numerator_ m (S i) * e_yd (nth i (rev steps) e_default) d) / beta_denominator_ m.
Proof.
  intros m f h steps s d. unfold e_step. destruct (e_sums_spec m steps d) as [A B].
  destruct (e_sums m steps) as [sum_y sum_f]. cbn [fst snd] in A, B.
  destruct (f (s + h) (fun d => sum_y d + h * sum_f d / beta_denominator_ m)) as [st yd]. cbn [fst e_y].
  rewrite A, B. reflexivity.
Qed.
Lemma e_step_s : forall m f h steps s, e_s (fst (e_step m f h steps s)) = s + h.
Proof. intros. unfold e_step. destruct (e_sums m steps) as [a b]. destruct (f _ _). reflexivity. Qed.
Lemma e_step_yd : forall m f h steps s,
  e_yd (fst (e_step m f h steps s)) = snd (f (s + h) (e_y (fst (e_step m f h steps s)))).
Proof.
  intros. unfold e_step. destruct (e_sums m steps) as [a b].
  destruct (f (s + h) _) as [st yd] eqn:E. cbn [fst e_y e_yd]. rewrite E. reflexivity.
Qed.
(** The previous steps are on the solution [y], which has the derivative [y1], up to [s]. *)
Definition e_on_solution (y y1 : nat -> R -> R) (h s : R) (n : nat) (steps : list EStep) : Prop :=
  length steps = n /\ forall i d, (i < n)%nat ->
    e_y (nth i (rev steps) e_default) d = y d (s - INR i * h) /\ e_yd (nth i (rev steps) e_default) d = y1 d (s - INR i * h).
Lemma explicit_defect : forall m f h s y y1 y2 steps d, well_formed m (e_alpha m) (e_beta m) = true ->
  e_on_solution y y1 h s (order m) steps ->
  formula (e_terms m) (y d) (y1 d) y2 (s + h) h
  = 2 * beta_denominator_ m * (y d (s + h) - e_y (fst (e_step m f h steps s)) d).
Proof.
  intros m f h s y y1 y2 steps d W [L H].
  apply well_formed_spec in W. destruct W as (A & A0 & B0 & Dn & _).
  pose proof (e_step_y m f h steps s d) as E.
  rewrite (sum_to_ext (order m) (fun i => alpha_ m (S i) * e_y _ _)
             (fun i => Q2R (e_alpha m (S i)) * y d (s + h + h * (-1 * INR (S i))))) in E.
  2:{ intros i Hi. destruct (H i d Hi) as [-> _]. unfold alpha_, e_alpha. f_equal. f_equal. rewrite S_INR. ring. }
  rewrite (sum_to_ext (order m) (fun i => beta_numerator_ m (S i) * e_yd _ _)
             (fun i => IZR (e_beta m (S i)) * y1 d (s + h + h * (-1 * INR (S i))))) in E.
  2:{ intros i Hi. destruct (H i d Hi) as [_ ->]. unfold beta_numerator_, e_beta. f_equal. f_equal. rewrite S_INR. ring. }
  rewrite E. unfold e_terms. rewrite lm_value by exact A.
  cbn [pick pow]. rewrite !sum_to_S. rewrite A0, B0.
  set (u := sum_to _ (fun i => Q2R _ * _)) in *. set (v := sum_to _ (fun i => IZR _ * _)) in *. clearbody u v.
  cbn [INR]. replace (s + h + h * (-1 * 0)) with (s + h) by ring.
  unfold beta_denominator_ in *. field. exact Dn.
Qed.
Lemma explicit_exact : forall m f h s y y1 steps, In m explicit_methods ->
  (forall d, polynomial (order m) (y d)) -> (forall d, derivative (y d) (y1 d)) ->
  e_on_solution y y1 h s (order m) steps ->
  forall d, e_y (fst (e_step m f h steps s)) d = y d (s + h).
Proof.
  intros m f h s y y1 steps Hm P D H d. pose proof explicit_check as C. rewrite forallb_forall in C. specialize (C m Hm).
  repeat rewrite andb_true_iff in C. destruct C as ((W & X) & _).
  destruct (second_derivative _ _ _ (P d) (D d)) as [y2 D2].
  pose proof (formula_exact _ _ _ _ y2 (s + h) h X (P d) (D d) D2) as F.
  rewrite (explicit_defect m f h s y y1 y2 steps d W H) in F. apply well_formed_spec in W. destruct W as (_ & _ & _ & Dn & _).
  apply Rmult_integral in F. destruct F as [F|F]; [lra|lra].
Qed.
Lemma explicit_sharp : forall m f h, In m explicit_methods -> h <> 0 -> exists y y1 s steps,
  (forall d, polynomial (S (order m)) (y d)) /\ (forall d, derivative (y d) (y1 d)) /\
  e_on_solution y y1 h s (order m) steps /\
  forall d, e_y (fst (e_step m f h steps s)) d <> y d (s + h).
Proof.
  intros m f h Hm Hh. pose proof explicit_check as C. rewrite forallb_forall in C. specialize (C m Hm).
  repeat rewrite andb_true_iff in C. destruct C as ((W & X) & N).
  set (k := S (order m)) in *. destruct (power_derivatives k) as [D1 D2].
  set (y := fun (_ : nat) (x : R) => x ^ k). set (y1 := fun (_ : nat) (x : R) => dmono 1 x k).
  set (g := fun i => mkEStep 0 (fun d => y d (- h - INR i * h)) (fun d => y1 d (- h - INR i * h))).
  assert (O : e_on_solution y y1 h (- h) (order m) (rev (map g (seq 0 (order m))))).
  { split; [rewrite rev_length, map_length; apply seq_length|]. intros i d Hi. rewrite rev_involutive.
    rewrite (nth_indep _ e_default (g 0%nat)) by (rewrite map_length, seq_length; exact Hi).
    rewrite map_nth, seq_nth by exact Hi. split; reflexivity. }
  exists y, y1, (- h), (rev (map g (seq 0 (order m)))).
  split; [intros d; apply power_polynomial|]. split; [intros d; exact D1|]. split; [exact O|].
  intros d E. pose proof (explicit_defect m f h (- h) y y1 (fun x => dmono 2 x k) _ d W O) as F.
  rewrite E in F. unfold y, y1 in F. replace (- h + h) with 0 in F by ring. rewrite formula_power in F.
  - apply negb_true_iff in N. apply Z.eqb_neq in N. apply (IZR_neq _ 0) in N.
    pose proof (pow_nonzero h k Hh) as K. apply (Rmult_integral_contrapositive_currified _ _ K) in N.
    apply N. rewrite F. ring.
  - unfold exact_up_to in X. apply andb_prop in X. destruct X as [X _]. exact X.
Qed.

(** * SymmetricLinearMultistepIntegrator *)
(** The method has the coefficients [alpha] and then the same in reverse order. *)
Definition s_alpha (m : Multistep) (j : nat) : Q := nth (Nat.min j (order m - j)) (alpha m) 0%Q.
Definition s_beta (m : Multistep) (j : nat) : Z := nth (Nat.min j (order m - j)) (beta_numerator m) 0%Z.
Definition s_terms (m : Multistep) : list Term := lm_terms 2 1 (S (order m)) (s_alpha m) (s_beta m) (beta_denominator m).
Lemma symmetric_check : forallb (fun m => well_formed m (s_alpha m) (s_beta m) && Nat.even (order m)
    && Nat.leb (order m) 15 && exact_up_to (S (order m)) (s_terms m) && negb (Z.eqb (at_mono (s_terms m) (S (S (order m)))) 0))
    symmetric_methods = true.
Proof. vm_compute. reflexivity. Qed.

Lemma hd_nth : forall (A : Type) (l : list A) d, hd d l = nth 0 l d.
Proof. intros A [|x l] d; reflexivity. Qed.
Lemma tl_nth : forall (A : Type) (l : list A) i d, nth i (tl l) d = nth (S i) l d.
Proof. intros A [|x l] i d; [destruct i; reflexivity|reflexivity]. Qed.
Lemma pair_loop_spec : forall m count j front back sq sa d,
  let '(front', sq', sa') := pair_loop m count j front back sq sa in
  (forall i, nth i front' default_step = nth (count + i) front default_step)
  /\ sq' d = sq d - sum_to count (fun i => alpha_ m (j + i) * (displacements (nth i front default_step) d
                                                              + displacements (nth i back default_step) d))
  /\ sa' d = sa d + sum_to count (fun i => beta_numerator_ m (j + i) * (accelerations (nth i front default_step) d
                                                              + accelerations (nth i back default_step) d)).
Proof.
  intros m count. induction count as [|count IH]; intros j front back sq sa d; cbn [pair_loop].
  - split; [reflexivity|]. unfold sum_to. cbn. split; ring.
  - match goal with |- context [pair_loop m count ?J ?F ?B ?Q ?A] =>
      specialize (IH J F B Q A d); destruct (pair_loop m count J F B Q A) as [[front' sq'] sa'] end.
    destruct IH as (H1 & H2 & H3). split; [intros i; rewrite H1, tl_nth; reflexivity|].
    rewrite H2, H3, !sum_to_S, !Nat.add_0_r. unfold vadd, vscal. rewrite !hd_nth.
    rewrite (sum_to_ext count (fun i => alpha_ m (S j + i) * _)
      (fun i => alpha_ m (j + S i) * (displacements (nth (S i) front default_step) d + displacements (nth (S i) back default_step) d)))
      by (intros i _; rewrite !tl_nth; replace (S j + i)%nat with (j + S i)%nat by lia; reflexivity).
    rewrite (sum_to_ext count (fun i => beta_numerator_ m (S j + i) * _)
      (fun i => beta_numerator_ m (j + S i) * (accelerations (nth (S i) front default_step) d
                                               + accelerations (nth (S i) back default_step) d)))
      by (intros i _; rewrite !tl_nth; replace (S j + i)%nat with (j + S i)%nat by lia; reflexivity).
    split; ring.
Qed.
(** A symmetric sum over an even number of points. *)
Lemma symmetric_sum : forall n (w : nat -> R) (x : nat -> R), (1 <= n)%nat ->
  sum_to (2 * n) (fun j => w (Nat.min j (2 * n - j)) * x j)
  = w 0%nat * x 0%nat + sum_to (n - 1) (fun i => w (1 + i)%nat * (x (S i) + x (2 * n - 1 - i)%nat)) + w n * x n.
Proof.
  intros n w x Hn. destruct n as [|n]; [lia|]. replace (2 * S n)%nat with (S n + S n)%nat by lia.
  rewrite sum_to_split, !sum_to_S. replace (S n - 1)%nat with n by lia. rewrite Nat.add_0_r.
  replace (Nat.min 0 (S n + S n - 0)) with 0%nat by lia.
  replace (Nat.min (S n) (S n + S n - S n)) with (S n) by lia.
  rewrite (sum_to_rev n (fun i => w (Nat.min (S n + S i) (S n + S n - (S n + S i))) * _)).
  rewrite (sum_to_ext n (fun i => w (Nat.min (S i) (S n + S n - S i)) * x (S i)) (fun i => w (1 + i)%nat * x (S i))).
  2:{ intros i Hi. replace (Nat.min (S i) (S n + S n - S i)) with (1 + i)%nat by lia. reflexivity. }
  rewrite (sum_to_ext n (fun i => w (Nat.min (S n + S (n - 1 - i)) _) * _) (fun i => w (1 + i)%nat * x (S n + S n - 1 - i)%nat)).
  2:{ intros i Hi. replace (Nat.min (S n + S (n - 1 - i)) (S n + S n - (S n + S (n - 1 - i)))) with (1 + i)%nat by lia.
      replace (S n + S (n - 1 - i))%nat with (S n + S n - 1 - i)%nat by lia. reflexivity. }
  rewrite (sum_to_ext n (fun i => w (1 + i)%nat * (x (S i) + _))
             (fun i => w (1 + i)%nat * x (S i) + w (1 + i)%nat * x (S n + S n - 1 - i)%nat)) by (intros; ring).
  rewrite sum_to_add. ring.
Qed.
Lemma s_sums_spec : forall m steps d, Nat.even (order m) = true -> (2 <= order m)%nat -> length steps = order m ->
  fst (s_sums m steps) d
  = - sum_to (order m) (fun j => Q2R (s_alpha m j) * displacements (nth j steps default_step) d)
  /\ snd (s_sums m steps) d
  = sum_to (order m) (fun j => IZR (s_beta m j) * accelerations (nth j steps default_step) d).
Proof.
  intros m steps d Ev H2 L. apply Nat.even_spec in Ev. destruct Ev as [n En].
  assert (H : (order m / 2 = n)%nat) by (rewrite En, Nat.mul_comm; apply Nat.div_mul; lia).
  unfold s_sums. rewrite H.
  match goal with |- context [pair_loop m ?c ?J ?F ?B ?Q ?A] =>
    pose proof (pair_loop_spec m c J F B Q A d) as P; destruct (pair_loop m c J F B Q A) as [[front' sq'] sa'] end.
  destruct P as (P1 & P2 & P3). cbn [fst snd]. unfold s_alpha, s_beta. rewrite En.
  rewrite (symmetric_sum n (fun j => Q2R (nth j (alpha m) 0%Q)) (fun j => displacements (nth j steps default_step) d)) by lia.
  rewrite (symmetric_sum n (fun j => IZR (nth j (beta_numerator m) 0%Z)) (fun j => accelerations (nth j steps default_step) d)) by lia.
  unfold vadd, vscal in *. rewrite P2, P3, !hd_nth, !P1, tl_nth. clear P1 P2 P3.
  replace (S (n - 1 + 0)) with n by lia.
  rewrite (sum_to_ext (n - 1) (fun i => alpha_ m (1 + i) * _)
    (fun i => Q2R (nth (1 + i) (alpha m) 0%Q) * (displacements (nth (S i) steps default_step) d
               + displacements (nth (2 * n - 1 - i) steps default_step) d))).
  2:{ intros i Hi. rewrite tl_nth, rev_nth by lia. replace (length steps - S i)%nat with (2 * n - 1 - i)%nat by lia. reflexivity. }
  rewrite (sum_to_ext (n - 1) (fun i => beta_numerator_ m (1 + i) * _)
    (fun i => IZR (nth (1 + i) (beta_numerator m) 0%Z) * (accelerations (nth (S i) steps default_step) d
               + accelerations (nth (2 * n - 1 - i) steps default_step) d))).
  2:{ intros i Hi. rewrite tl_nth, rev_nth by lia. replace (length steps - S i)%nat with (2 * n - 1 - i)%nat by lia. reflexivity. }
  unfold alpha_, beta_numerator_. split; ring.
Qed.
(** The symmetric recurrence. *)
Lemma s_step_q : forall m f h steps t d, Nat.even (order m) = true -> (2 <= order m)%nat -> length steps = order m ->
  displacements (fst (s_step m f h steps t)) d
  = - sum_to (order m) (fun j => Q2R (s_alpha m j) * displacements (nth j steps default_step) d)
    + h * h * sum_to (order m) (fun j => IZR (s_beta m j) * accelerations (nth j steps default_step) d) / beta_denominator_ m.
Proof.
  intros m f h steps t d Ev H2 L. destruct (s_sums_spec m steps d Ev H2 L) as [A B]. unfold s_step.
  destruct (s_sums m steps) as [sq sa]. cbn [fst snd] in A, B.
  destruct (f (t + h) _) as [st a]. cbn [fst displacements]. rewrite A, B. reflexivity.
Qed.
Lemma s_step_t : forall m f h steps t, step_time (fst (s_step m f h steps t)) = t + h.
Proof. intros. unfold s_step. destruct (s_sums m steps) as [a b]. destruct (f _ _). reflexivity. Qed.
Lemma s_step_a : forall m f h steps t,
  accelerations (fst (s_step m f h steps t)) = snd (f (t + h) (displacements (fst (s_step m f h steps t)))).
Proof.
  intros. unfold s_step. destruct (s_sums m steps) as [a b].
  destruct (f (t + h) _) as [st yd] eqn:E. cbn [fst displacements accelerations]. rewrite E. reflexivity.
Qed.
(** The previous steps are on the motion [q], whose second derivative is [q2], up to [t]. *)
Definition s_on_motion (q q2 : nat -> R -> R) (h t : R) (n : nat) (steps : list Step) : Prop :=
  length steps = n /\ forall i d, (i < n)%nat ->
    displacements (nth i (rev steps) default_step) d = q d (t - INR i * h)
    /\ accelerations (nth i (rev steps) default_step) d = q2 d (t - INR i * h).
Lemma symmetric_spec : forall m, In m symmetric_methods ->
  (forall j, (j < S (order m))%nat -> halves (s_alpha m j) = true) /\ Q2R (s_alpha m 0) = 1 /\ s_beta m 0 = 0%Z
  /\ beta_denominator_ m <> 0 /\ (2 <= order m <= 15)%nat /\ Nat.even (order m) = true
  /\ exact_up_to (S (order m)) (s_terms m) = true /\ at_mono (s_terms m) (S (S (order m))) <> 0%Z.
Proof.
  intros m Hm. pose proof symmetric_check as C. rewrite forallb_forall in C. specialize (C m Hm).
  repeat rewrite andb_true_iff in C. destruct C as ((((W & Ev) & Le) & X) & N).
  apply well_formed_spec in W. destruct W as (A & A0 & B0 & Dn & H2). apply Nat.leb_le in Le.
  repeat split; try assumption; try lia.
Qed.
Lemma s_end : forall m, s_alpha m (order m) = s_alpha m 0 /\ s_beta m (order m) = s_beta m 0.
Proof.
  intros m. unfold s_alpha, s_beta. replace (Nat.min (order m) (order m - order m)) with 0%nat by lia.
  replace (Nat.min 0 (order m - 0)) with 0%nat by lia. split; reflexivity.
Qed.
Lemma symmetric_defect : forall m f h t q q1 q2 steps d, In m symmetric_methods -> s_on_motion q q2 h t (order m) steps ->
  formula (s_terms m) (q d) (q1 d) (q2 d) (t + h - INR (order m) * h) h
  = 2 * beta_denominator_ m * (q d (t + h) - displacements (fst (s_step m f h steps t)) d).
Proof.
  intros m f h t q q1 q2 steps d Hm [L H].
  destruct (symmetric_spec m Hm) as (A & A0 & B0 & Dn & H2 & Ev & X & _).
  unfold s_terms. rewrite lm_value by exact A. cbn [pick]. rewrite !sum_to_last.
  destruct (s_end m) as [Ea Eb]. rewrite Ea, Eb, A0, B0.
  rewrite s_step_q by (try assumption; lia).
  assert (N : forall i d, (i < order m)%nat ->
    displacements (nth i steps default_step) d = q d (t + h - INR (order m) * h + h * (1 * INR i))
    /\ accelerations (nth i steps default_step) d = q2 d (t + h - INR (order m) * h + h * (1 * INR i))).
  { intros i d' Hi. destruct (H (order m - 1 - i)%nat d') as [U V]; [lia|].
    rewrite rev_nth in U, V by lia. rewrite L in U, V.
    replace (order m - S (order m - 1 - i))%nat with i in U, V by lia. rewrite U, V.
    replace (t - INR (order m - 1 - i) * h) with (t + h - INR (order m) * h + h * (1 * INR i)); [split; reflexivity|].
    rewrite !minus_INR by lia. cbn [INR]. ring. }
  rewrite (sum_to_ext (order m) (fun j => Q2R (s_alpha m j) * displacements _ d)
             (fun j => Q2R (s_alpha m j) * q d (t + h - INR (order m) * h + h * (1 * INR j))))
    by (intros i Hi; destruct (N i d Hi) as [-> _]; reflexivity).
  rewrite (sum_to_ext (order m) (fun j => IZR (s_beta m j) * accelerations _ d)
             (fun j => IZR (s_beta m j) * q2 d (t + h - INR (order m) * h + h * (1 * INR j))))
    by (intros i Hi; destruct (N i d Hi) as [_ ->]; reflexivity).
  set (u := sum_to _ (fun i => Q2R _ * _)) in *. set (v := sum_to _ (fun i => IZR _ * _)) in *. clearbody u v.
  replace (t + h - INR (order m) * h + h * (1 * INR (order m))) with (t + h) by ring.
  unfold beta_denominator_ in *. set (w := IZR (beta_denominator m)) in *. cbn [pow]. field. exact Dn.
Qed.
Lemma symmetric_exact : forall m f h t q q1 q2 steps, In m symmetric_methods ->
  (forall d, polynomial (S (order m)) (q d)) -> (forall d, derivative (q d) (q1 d)) -> (forall d, derivative (q1 d) (q2 d)) ->
  s_on_motion q q2 h t (order m) steps ->
  forall d, displacements (fst (s_step m f h steps t)) d = q d (t + h).
Proof.
  intros m f h t q q1 q2 steps Hm P D D2 H d.
  destruct (symmetric_spec m Hm) as (A & A0 & B0 & Dn & H2 & Ev & X & _).
  pose proof (formula_exact _ _ _ _ _ (t + h - INR (order m) * h) h X (P d) (D d) (D2 d)) as F.
  rewrite (symmetric_defect m f h t q q1 q2 steps d Hm H) in F.
  apply Rmult_integral in F. destruct F as [F|F]; [lra|lra].
Qed.
Lemma symmetric_sharp : forall m f h, In m symmetric_methods -> h <> 0 -> exists q q1 q2 t steps,
  (forall d, polynomial (S (S (order m))) (q d)) /\ (forall d, derivative (q d) (q1 d)) /\ (forall d, derivative (q1 d) (q2 d)) /\
  s_on_motion q q2 h t (order m) steps /\
  forall d, displacements (fst (s_step m f h steps t)) d <> q d (t + h).
Proof.
  intros m f h Hm Hh. destruct (symmetric_spec m Hm) as (_ & _ & _ & _ & _ & _ & X & N).
  set (k := S (S (order m))) in *. destruct (power_derivatives k) as [D1 D2].
  set (q := fun (_ : nat) (x : R) => x ^ k). set (q1 := fun (_ : nat) (x : R) => dmono 1 x k).
  set (q2 := fun (_ : nat) (x : R) => dmono 2 x k). set (t := INR (order m) * h - h).
  set (g := fun i => mkStep 0 (fun d => q d (t - INR i * h)) (fun d => q2 d (t - INR i * h))).
  assert (O : s_on_motion q q2 h t (order m) (rev (map g (seq 0 (order m))))).
  { split; [rewrite rev_length, map_length; apply seq_length|]. intros i d Hi. rewrite rev_involutive.
    rewrite (nth_indep _ default_step (g 0%nat)) by (rewrite map_length, seq_length; exact Hi).
    rewrite map_nth, seq_nth by exact Hi. split; reflexivity. }
  exists q, q1, q2, t, (rev (map g (seq 0 (order m)))).
  split; [intros d; apply power_polynomial|]. split; [intros d; exact D1|]. split; [intros d; exact D2|]. split; [exact O|].
  intros d E. pose proof (symmetric_defect m f h t q q1 q2 _ d Hm O) as F.
  rewrite E in F. unfold q, q1, q2 in F. replace (t + h - INR (order m) * h) with 0 in F by (unfold t; ring).
  rewrite formula_power in F.
  - apply (IZR_neq _ 0) in N.
    pose proof (pow_nonzero h k Hh) as K. apply (Rmult_integral_contrapositive_currified _ _ K) in N.
    apply N. rewrite F. ring.
  - unfold exact_up_to in X. apply andb_prop in X. destruct X as [X _]. exact X.
Qed.
(** The velocities. *)
Lemma velocity_formula : forall m h steps d q2 q t, nth_error CohenHubbardOesterwinterOrder (order m - 1) = Some (cho m) ->
  (2 <= order m)%nat -> length (numerators (cho m)) = order m -> s_on_motion q q2 h t (order m) steps ->
  ComputeVelocity m h steps d = cho_formula (cho m) (q d) (q2 d) t h.
Proof.
  intros m h steps d q2 q t E H2 Ln [L H]. unfold ComputeVelocity, cho_formula. rewrite fold_sum.
  destruct (H 0%nat d ltac:(lia)) as [U0 _]. destruct (H 1%nat d ltac:(lia)) as [U1 _]. rewrite U0, U1.
  rewrite (sum_to_ext _ (fun i => IZR (nth (0 + i) _ _) * _)
             (fun i => IZR (nth i (numerators (cho m)) 0%Z) * q2 d (t - INR i * h))).
  - cbn [INR]. replace (t - 0 * h) with t by ring. replace (t - 1 * h) with (t - h) by ring. rewrite Rplus_0_l.
    set (s := sum_to _ _). unfold Rdiv. ring.
  - intros i Hi. cbn [plus]. destruct (H i d ltac:(lia)) as [_ ->]. reflexivity.
Qed.
Lemma velocity_exact : forall m h t q q1 q2 steps, In m symmetric_methods -> h <> 0 ->
  (forall d, polynomial (S (order m)) (q d)) -> (forall d, derivative (q d) (q1 d)) -> (forall d, derivative (q1 d) (q2 d)) ->
  s_on_motion q q2 h t (order m) steps ->
  forall d, ComputeVelocity m h steps d = q1 d t.
Proof.
  intros m h t q q1 q2 steps Hm Hh P D D2 H d.
  destruct (symmetric_spec m Hm) as (_ & _ & _ & _ & H2 & _).
  destruct (cohen_hubbard_oesterwinter (order m) ltac:(lia)) as (c & E & Ln & X & _).
  assert (Ec : cho m = c) by (unfold cho; apply nth_error_nth; exact E).
  rewrite (velocity_formula m h steps d q2 q t) by (rewrite ?Ec; try assumption; lia).
  rewrite Ec. apply (X (q d) (q1 d)); auto.
Qed.

(** * Symmetry *)
(** Backward in time, the reverse of the steps and the new one lead to the first. *)
Lemma symmetric_reverse : forall m f h steps t f' t' d, In m symmetric_methods -> length steps = order m ->
  displacements (fst (s_step m f' (- h) (rev (tl steps ++ [fst (s_step m f h steps t)])) t')) d
  = displacements (hd default_step steps) d.
Proof.
  intros m f h steps t f' t' d Hm L.
  destruct (symmetric_spec m Hm) as (_ & A0 & B0 & Dn & H2 & Ev & _ & _).
  set (new := fst (s_step m f h steps t)).
  assert (Q : displacements new d
     = - sum_to (order m) (fun j => Q2R (s_alpha m j) * displacements (nth j steps default_step) d)
       + h * h * sum_to (order m) (fun j => IZR (s_beta m j) * accelerations (nth j steps default_step) d) / beta_denominator_ m)
    by (apply s_step_q; try assumption; lia).
  clearbody new. destruct steps as [|first rest]; [cbn in L; lia|]. cbn [tl hd length] in *.
  assert (L' : length (rev (rest ++ [new])) = order m) by (rewrite rev_length, app_length; cbn; lia).
  rewrite s_step_q by (try assumption; lia).
  assert (S : forall (w : nat -> R) (v : Step -> R), (forall j, (j <= order m)%nat -> w (order m - j)%nat = w j) ->
    sum_to (order m) (fun j => w j * v (nth j (rev (rest ++ [new])) default_step))
    = w 0%nat * v new - w 0%nat * v first + sum_to (order m) (fun j => w j * v (nth j (first :: rest) default_step))).
  { intros w v Hw. rewrite <- L. rewrite (sum_to_S _ (fun j => w j * v (nth j (first :: rest) default_step))).
    rewrite sum_to_S. rewrite rev_app_distr. cbn [rev app nth].
    rewrite (sum_to_rev _ (fun i => w (S i) * v (nth i (rev rest) default_step))).
    rewrite (sum_to_ext _ _ (fun i => w (S i) * v (nth i rest default_step))); [ring|].
    intros i Hi. rewrite rev_nth by lia. replace (length rest - S (length rest - 1 - i))%nat with i by lia.
    replace (S (length rest - 1 - i)) with (order m - S i)%nat by lia. rewrite Hw by lia. reflexivity. }
  rewrite (S (fun j => Q2R (s_alpha m j)) (fun x => displacements x d)).
  2:{ intros j Hj. unfold s_alpha. replace (Nat.min (order m - j) (order m - (order m - j))) with (Nat.min j (order m - j)) by lia.
      reflexivity. }
  rewrite (S (fun j => IZR (s_beta m j)) (fun x => accelerations x d)).
  2:{ intros j Hj. unfold s_beta. replace (Nat.min (order m - j) (order m - (order m - j))) with (Nat.min j (order m - j)) by lia.
      reflexivity. }
  rewrite A0, B0, Q. set (u := sum_to _ _). set (v := sum_to _ (fun j => IZR _ * _)). field. exact Dn.
Qed.
