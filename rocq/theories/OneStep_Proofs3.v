(** The symplectic Runge-Kutta-Nyström integrators preserve the symplectic form; statuses. *)
From Coq Require Import Reals List Bool Arith Lra Lia FunctionalExtensionality.
From Verif Require Import OneStep_Model Multistep_Proofs Multistep_Proofs2 OneStep_Proofs OneStep_Proofs2.
Import ListNotations.
Open Scope R_scope.

(** * The symplectic form in [D] dimensions *)
(** [w] is the tangent at 0 of the curve [c] of states at one time. *)
Definition tangent (D : nat) (c : R -> State) (w : Vec * Vec) : Prop :=
  (forall e, time (c e) = time (c 0)) /\
  forall d, (d < D)%nat -> derivable_pt_lim (fun e => positions (c e) d) 0 (fst w d) /\
                           derivable_pt_lim (fun e => velocities (c e) d) 0 (snd w d).
Definition omega (D : nat) (w1 w2 : Vec * Vec) : R := sum_to D (fun d => fst w1 d * snd w2 d - snd w1 d * fst w2 d).
(** The field [f] has at each point the derivative [A], and it is symmetric: this is so if it is a gradient. *)
Definition symmetric_derivative (D : nat) (f : R -> Vec -> Vec) (A : R -> Vec -> nat -> nat -> R) : Prop :=
  (forall t q i j, A t q i j = A t q j i) /\
  forall t (x : R -> Vec) u d, (d < D)%nat -> (forall j, (j < D)%nat -> derivable_pt_lim (fun e => x e j) 0 (u j)) ->
    derivable_pt_lim (fun e => f t (x e) d) 0 (sum_to D (fun j => A t (x 0) d j * u j)).

Lemma sum_to_0 : forall n f, (forall i, (i < n)%nat -> f i = 0) -> sum_to n f = 0.
Proof.
  intros n f H. rewrite (sum_to_ext n f (fun i => 0 * 1)) by (intros i Hi; rewrite H by exact Hi; ring).
  rewrite (sum_to_scal n 0 (fun _ => 1)). ring.
Qed.
Lemma sum_to_swap : forall m n (g : nat -> nat -> R),
  sum_to m (fun i => sum_to n (fun j => g i j)) = sum_to n (fun j => sum_to m (fun i => g i j)).
Proof.
  intros m n g. induction m as [|m IH]; [symmetry; apply sum_to_0; reflexivity|].
  rewrite sum_to_last, IH. rewrite (sum_to_ext n (fun j => sum_to (S m) (fun i => g i j)) (fun j => sum_to m (fun i => g i j) + g m j))
    by (intros j _; apply (sum_to_last m (fun i => g i j))). symmetry. apply sum_to_add.
Qed.
Lemma symmetric_form : forall D (A : nat -> nat -> R) x y, (forall i j, A i j = A j i) ->
  sum_to D (fun i => x i * sum_to D (fun j => A i j * y j)) = sum_to D (fun i => y i * sum_to D (fun j => A i j * x j)).
Proof.
  intros D A x y H.
  rewrite (sum_to_ext D _ (fun i => sum_to D (fun j => x i * (A i j * y j)))) by (intros; symmetry; apply sum_to_scal).
  rewrite (sum_to_ext D (fun i => y i * _) (fun i => sum_to D (fun j => y i * (A i j * x j)))) by (intros; symmetry; apply sum_to_scal).
  rewrite sum_to_swap. apply sum_to_ext. intros i _. apply sum_to_ext. intros j _. rewrite (H i j). ring.
Qed.

(** The tangents after a kick or a drift. *)
Definition dact (D : nat) (A : R -> Vec -> nat -> nat -> R) (o : Op) (s : State) (w : Vec * Vec) : Vec * Vec :=
  match o with
  | Kick tau => (fst w, fun d => snd w d + tau * sum_to D (fun j => A (time s) (positions s) d j * fst w j))
  | Drift tau => (fun d => fst w d + tau * snd w d, snd w)
  end.
Lemma act_tangent : forall D f A o c w, symmetric_derivative D f A -> tangent D c w ->
  tangent D (fun e => act f o (c e)) (dact D A o (c 0) w).
Proof.
  intros D f A o c w [_ SA] [T H]. destruct o as [tau|tau]; split.
  - exact T.
  - intros d Hd. destruct (H d Hd) as [H1 H2]. split; [exact H1|]. cbn [act velocities dact snd].
    apply (derivable_pt_lim_plus (fun e => velocities (c e) d) (fun e => tau * f (time (c e)) (positions (c e)) d)); [exact H2|].
    apply (derivable_pt_lim_scal (fun e => f (time (c e)) (positions (c e)) d)).
    replace (fun e => f (time (c e)) (positions (c e)) d) with (fun e => f (time (c 0)) (positions (c e)) d)
      by (apply functional_extensionality; intros e; rewrite (T e); reflexivity).
    apply (SA (time (c 0)) (fun e => positions (c e)) (fst w) d Hd). intros j Hj. apply (H j Hj).
  - intros e. cbn [act time]. rewrite (T e). reflexivity.
  - intros d Hd. destruct (H d Hd) as [H1 H2]. split; [|exact H2]. cbn [act positions dact fst].
    apply (derivable_pt_lim_plus (fun e => positions (c e) d) (fun e => tau * velocities (c e) d)); [exact H1|].
    apply (derivable_pt_lim_scal (fun e => velocities (c e) d)). exact H2.
Qed.
Lemma dact_omega : forall D f A o s w1 w2, symmetric_derivative D f A ->
  omega D (dact D A o s w1) (dact D A o s w2) = omega D w1 w2.
Proof.
  intros D f A o s w1 w2 [SY _]. unfold omega. destruct o as [tau|tau]; cbn [dact fst snd].
  - set (B := A (time s) (positions s)). pose proof (symmetric_form D B (fst w1) (fst w2) (SY (time s) (positions s))) as E.
    rewrite (sum_to_ext D _ (fun d => (fst w1 d * snd w2 d - snd w1 d * fst w2 d)
       + (tau * (fst w1 d * sum_to D (fun j => B d j * fst w2 j)) + - tau * (fst w2 d * sum_to D (fun j => B d j * fst w1 j)))))
      by (intros; ring).
    rewrite sum_to_add, (sum_to_add D (fun d => tau * _)), !sum_to_scal, E. ring.
  - apply sum_to_ext. intros. ring.
Qed.
Lemma run_symplectic : forall D f A l c1 c2 w1 w2, symmetric_derivative D f A -> tangent D c1 w1 -> tangent D c2 w2 -> c1 0 = c2 0 ->
  exists w1' w2', tangent D (fun e => run f l (c1 e)) w1' /\ tangent D (fun e => run f l (c2 e)) w2' /\
    omega D w1' w2' = omega D w1 w2.
Proof.
  intros D f A l. induction l as [|o l IH]; intros c1 c2 w1 w2 S T1 T2 E.
  - exists w1, w2. repeat split; assumption || apply T1 || apply T2; assumption.
  - destruct (IH (fun e => act f o (c1 e)) (fun e => act f o (c2 e)) (dact D A o (c1 0) w1) (dact D A o (c2 0) w2) S) as (w1' & w2' & H1 & H2 & H3).
    + apply act_tangent; assumption.
    + apply act_tangent; assumption.
    + cbn beta. rewrite E. reflexivity.
    + exists w1', w2'. split; [exact H1|]. split; [exact H2|]. rewrite H3, E. apply (dact_omega D f A). exact S.
Qed.
Lemma srkn_symplectic : forall m f h D A c1 c2 w1 w2 n, srkn_checks m = true -> (2 <= stages m)%nat -> consistent m ->
  symmetric_derivative D (field f) A -> tangent D c1 w1 -> tangent D c2 w2 -> c1 0 = c2 0 ->
  exists w1' w2', tangent D (fun e => iterated n (srkn_one m f h) (c1 e)) w1' /\
    tangent D (fun e => iterated n (srkn_one m f h) (c2 e)) w2' /\ omega D w1' w2' = omega D w1 w2.
Proof.
  intros m f h D A c1 c2 w1 w2 n C P K S. revert c1 c2 w1 w2. induction n as [|n IH]; intros c1 c2 w1 w2 T1 T2 E.
  - exists w1, w2. cbn [iterated]. split; [exact T1|]. split; [exact T2|reflexivity].
  - destruct (run_symplectic D (field f) A (ops m h) c1 c2 w1 w2 S T1 T2 E) as (v1 & v2 & H1 & H2 & H3).
    destruct (IH (fun e => srkn_one m f h (c1 e)) (fun e => srkn_one m f h (c2 e)) v1 v2) as (w1' & w2' & G1 & G2 & G3).
    + replace (fun e => srkn_one m f h (c1 e)) with (fun e => run (field f) (ops m h) (c1 e)); [exact H1|].
      apply functional_extensionality. intros e. symmetry. apply srkn_one_spec; assumption.
    + replace (fun e => srkn_one m f h (c2 e)) with (fun e => run (field f) (ops m h) (c2 e)); [exact H2|].
      apply functional_extensionality. intros e. symmetry. apply srkn_one_spec; assumption.
    + cbn beta. rewrite E. reflexivity.
    + exists w1', w2'. split; [exact G1|]. split; [exact G2|]. rewrite G3. exact H3.
Qed.

(** * The grid and the continuation *)
(** A [Solve] that continues one is the same as a single one. *)
Lemma srkn_continuation : forall m f h fuel t1 t2 s N1 N2, srkn_checks m = true -> (2 <= stages m)%nat -> consistent m ->
  h <> 0 -> (forall t q, fst (f t q) = Ok) -> time s <> t1 -> whole_steps h (time s) t1 N1 -> whole_steps h (time s) t2 N2 ->
  0 < (t2 - t1) / h -> (N2 <= fuel)%nat ->
  exists l1 s1 l2 s2, srkn_solve m f h fuel t1 s = Done l1 s1 Ok /\ srkn_solve m f h fuel t2 s1 = Done l2 s2 Ok /\
    srkn_solve m f h fuel t2 s = Done (l1 ++ l2) s2 Ok.
Proof.
  intros m f h fuel t1 t2 s N1 N2 C P K Hh O Ne W1 W2 L F.
  assert (T : forall n, time (iterated n (srkn_one m f h) s) = time s + INR n * h)
    by (intros n; apply iterated_time; intros s'; apply srkn_one_time).
  assert (X : (t2 - time s) / h = (t2 - t1) / h + (t1 - time s) / h) by (field; exact Hh).
  assert (NN : (N1 <= N2)%nat) by (apply Nat.lt_succ_r; apply INR_lt; rewrite S_INR; destruct W1, W2; lra).
  exists (map (fun i => iterated i (srkn_one m f h) s) (seq 1 N1)), (iterated N1 (srkn_one m f h) s),
    (map (fun i => iterated i (srkn_one m f h) (iterated N1 (srkn_one m f h) s)) (seq 1 (N2 - N1))),
    (iterated (N2 - N1) (srkn_one m f h) (iterated N1 (srkn_one m f h) s)).
  split; [apply srkn_solve_ok; try assumption; lia|]. split.
  - apply srkn_solve_ok; try assumption; try lia.
    + rewrite T. intros E. rewrite <- E in L, X. destruct W1 as (_ & W1 & _).
      assert ((time s + INR N1 * h - time s) / h = INR N1) by (field; exact Hh). lra.
    + rewrite T. unfold whole_steps. rewrite minus_INR by exact NN.
      replace ((t2 - (time s + INR N1 * h)) / h) with ((t2 - time s) / h - INR N1) by (field; exact Hh).
      destruct W1 as (_ & W1 & W1'), W2 as (_ & W2 & W2'). lra.
  - rewrite (srkn_solve_ok m f h C P K fuel t2 s N2); try assumption.
    + rewrite iterated_plus. replace (N1 + (N2 - N1))%nat with N2 by lia. f_equal.
      replace N2 with (N1 + (N2 - N1))%nat at 1 by lia. rewrite seq_app, map_app. f_equal.
      rewrite (Nat.add_comm 1 N1). rewrite <- (Nat.add_0_r N1) at 1.
      replace (N1 + 0 + 1)%nat with (N1 + 1)%nat by lia. clear. generalize (N2 - N1)%nat. intros n.
      generalize 1%nat at 1 2. induction n as [|n IH]; intros k; [reflexivity|]. cbn [seq map]. rewrite iterated_plus. f_equal.
      replace (S (N1 + k)) with (N1 + S k)%nat by lia. apply IH.
    + intros E. rewrite <- E in L, X. replace ((time s - time s) / h) with 0 in X by (field; exact Hh).
      destruct W1 as (W1 & _). lra.
Qed.

(** * The methods obtained from a partitioned method *)
Definition swap (o : Op) : Op := match o with Kick tau => Drift tau | Drift tau => Kick tau end.
Lemma shift_nth : forall a i, (i < length a)%nat -> nth i (Shift a) 0 = nth ((i + length a - 1) mod length a) a 0.
Proof.
  intros a i H. unfold Shift. rewrite (nth_indep _ 0 (nth ((0 + length a - 1) mod length a) a 0)) by (rewrite map_length, seq_length; exact H).
  rewrite (map_nth (fun i => nth ((i + length a - 1) mod length a) a 0)), seq_nth by exact H. reflexivity.
Qed.
Lemma shift_length : forall a, length (Shift a) = length a.
Proof. intros. unfold Shift. rewrite map_length, seq_length. reflexivity. Qed.
Lemma shift_0 : forall a, a <> [] -> nth 0 (Shift a) 0 = nth (length a - 1) a 0.
Proof.
  intros a H. assert (0 < length a)%nat by (destruct a; [congruence|cbn; lia]). rewrite shift_nth by lia. f_equal.
  apply Nat.mod_small. lia.
Qed.
Lemma shift_S : forall a i, (S i < length a)%nat -> nth (S i) (Shift a) 0 = nth i a 0.
Proof.
  intros a i H. rewrite shift_nth by lia. f_equal. replace (S i + length a - 1)%nat with (i + 1 * length a)%nat by lia.
  rewrite Nat.mod_add by lia. apply Nat.mod_small. lia.
Qed.
Lemma all_below_ext : forall n p q, (forall i, (i < n)%nat -> p i = q i) -> all_below n p = all_below n q.
Proof.
  induction n as [|n IH]; intros p q H; [reflexivity|]. cbn. rewrite (H n), (IH p q) by (try intros; try apply H; lia). reflexivity.
Qed.
Lemma map_flat_map : forall (A B D : Type) (g : B -> D) (k : A -> list B) l, map g (flat_map k l) = flat_map (fun x => map g (k x)) l.
Proof. induction l as [|x l IH]; [reflexivity|]. cbn. rewrite map_app, IH. reflexivity. Qed.
Lemma partitioned : forall m, sprk_first_same_as_last m = true -> sprk_a m <> [] -> length (sprk_b m) = length (sprk_a m) ->
  exists m1 m2, AsSRKN m ABA = Some m1 /\ AsSRKN m BAB = Some m2 /\ (forall h, ops m1 h = map swap (ops m2 h)) /\
    srkn_checks m1 = srkn_checks m2.
Proof.
  intros m F Ne L. unfold AsSRKN. rewrite F. do 2 eexists. split; [reflexivity|]. split; [reflexivity|].
  assert (P : (0 < length (sprk_a m))%nat) by (destruct (sprk_a m); [congruence|cbn; lia]).
  split.
  - intros h. unfold ops, stages. cbn [composition srkn_a srkn_b]. rewrite L. destruct (length (sprk_a m)) as [|n] eqn:E; [lia|].
    replace (S n - 1)%nat with n by lia. rewrite map_app. cbn [map swap]. unfold b_, a_. cbn [srkn_a srkn_b].
    rewrite map_flat_map. cbn [kick_drift map swap].
    pose proof (shift_pairs (fun i => Drift (h * nth i (sprk_b m) 0)) (fun i => Kick (h * nth i (sprk_a m) 0)) n) as X.
    cbn beta in X. unfold b_, a_. cbn [srkn_a srkn_b]. rewrite <- X. f_equal. rewrite <- seq_shift, flat_map_map.
    apply flat_map_ext_in. intros i Hi. rewrite in_seq in Hi. unfold kick_drift, b_, a_. cbn [srkn_a srkn_b].
    rewrite shift_S by lia. reflexivity.
  - unfold srkn_checks, stages. cbn [composition time_reversible srkn_a srkn_b]. rewrite L. unfold b_, a_. cbn [srkn_a srkn_b].
    rewrite shift_0 by exact Ne. f_equal. destruct (sprk_time_reversible m); [|reflexivity].
    rewrite andb_comm. f_equal. apply all_below_ext. intros i Hi.
    rewrite (Nat.add_1_r i), shift_S by lia.
    replace (length (sprk_a m) - 1 - i)%nat with (S (length (sprk_a m) - 2 - i)) by lia. rewrite shift_S by lia. reflexivity.
Qed.

(** * Statuses *)
(** If a step is aborted and the previous ones were OK, the integration stops there. *)
Lemma srkn_abort : forall m f h fuel t_final s N n, srkn_checks m = true -> (2 <= stages m)%nat -> consistent m -> h <> 0 ->
  whole_steps h (time s) t_final N -> (N <= fuel)%nat -> (1 <= n <= N)%nat ->
  (is_bab m = true -> fst (f (time s) (positions s)) = Ok) ->
  (forall i, (i < n - 1)%nat -> srkn_status m f h (iterated i (srkn_one m f h) s) = Ok) ->
  srkn_status m f h (iterated (n - 1) (srkn_one m f h) s) = Aborted ->
  srkn_solve m f h fuel t_final s
  = Done (map (fun i => iterated i (srkn_one m f h) s) (seq 1 n)) (iterated n (srkn_one m f h) s) Aborted.
Proof.
  intros m f h fuel t_final s N n C P K Hh W F Hn O S Ab.
  assert (AC : forall i, (i <= n - 1)%nat -> accumulated i (srkn_one m f h) (srkn_status m f h) s Ok = Ok).
  { induction i as [|i IH]; intros Hi; [reflexivity|]. rewrite accumulated_S, IH, S by lia. reflexivity. }
  assert (AN : accumulated n (srkn_one m f h) (srkn_status m f h) s Ok = Aborted).
  { replace n with (Datatypes.S (n - 1)) at 1 by lia. rewrite accumulated_S, AC by lia. exact Ab. }
  unfold srkn_solve. destruct (Req_EM_T h 0) as [|_]; [contradiction|].
  assert (D : direction_check State time h t_final s = true).
  { apply (direction_ok time h Hh). destruct W as (_ & W & _). apply Rlt_le_trans with (2 := W). apply (lt_INR 0). lia. }
  rewrite D.
  assert (R : forall g, srkn_good m f s g -> one_step_loop State time Vec (srkn_iterate m f h) h fuel t_final s g Ok
    = Done (map (fun i => iterated i (srkn_one m f h) s) (seq 1 n)) (iterated n (srkn_one m f h) s) Aborted).
  { intros g G. rewrite <- AN.
    apply (loop_run time (srkn_iterate m f h) h (srkn_one m f h) (srkn_status m f h) (srkn_good m f) Hh (srkn_hone m f h C P K)
             (srkn_one_time m f h) n N); try assumption; try lia.
    - intros i Hi. rewrite AC by lia. reflexivity.
    - right. split; [lia|]. rewrite AN. reflexivity. }
  unfold is_bab, srkn_good in *. destruct (composition m) eqn:Q.
  - apply R. exact I.
  - apply R. exact I.
  - specialize (O eq_refl). destruct (f (time s) (positions s)) as [st g] eqn:Ef. cbn in O. subst st. apply R.
    unfold field. rewrite Ef. reflexivity.
Qed.

(** ABA leapfrog. *)
Definition leapfrog : SRKN := mkSRKN ABA true [1 / 2; 1 / 2] [0; 1].
Lemma Reqb_refl : forall x, Reqb x x = true.
Proof. intros x. unfold Reqb. destruct (Req_EM_T x x); [reflexivity|contradiction]. Qed.
Lemma leapfrog_from : AsSRKN NewtonDelambreStormerVerletLeapfrog ABA = Some leapfrog.
Proof. reflexivity. Qed.
Lemma leapfrog_checks : srkn_checks leapfrog = true /\ consistent leapfrog /\ stages leapfrog = 2%nat.
Proof.
  split; [|split; [|reflexivity]].
  - unfold srkn_checks, leapfrog. cbn. unfold b_, a_. cbn. rewrite !Reqb_refl. reflexivity.
  - unfold consistent, c_. cbn. lra.
Qed.
(** An error, then [Aborted]: the integration continues to the end. *)
Definition failing (t : R) (q : Vec) : Status * Vec := (if Rlt_dec t 1 then OtherError 1 else Aborted, vzero).
Lemma failing_status : forall s, srkn_status leapfrog failing 1 s = if Rlt_dec (time s + 1 / 2 * 1) 1 then OtherError 1 else Aborted.
Proof.
  intros s. unfold srkn_status, srkn_iterate. cbn. unfold c_. cbn. unfold failing. replace (0 + 1 / 2) with (1 / 2) by ring.
  destruct (Rlt_dec (time s + 1 / 2 * 1) 1); reflexivity.
Qed.
Lemma srkn_abort_masked : srkn_status leapfrog failing 1 (srkn_one leapfrog failing 1 (mkState 0 vzero vzero)) = Aborted /\
  srkn_solve leapfrog failing 1 3 3 (mkState 0 vzero vzero)
  = Done (map (fun i => iterated i (srkn_one leapfrog failing 1) (mkState 0 vzero vzero)) [1; 2; 3]%nat)
         (iterated 3 (srkn_one leapfrog failing 1) (mkState 0 vzero vzero)) (OtherError 1).
Proof.
  destruct leapfrog_checks as (C & K & E). set (s0 := mkState 0 vzero vzero).
  assert (T : forall n, time (iterated n (srkn_one leapfrog failing 1) s0) = 0 + INR n * 1).
  { intros n. apply (iterated_time time 1 (srkn_one leapfrog failing 1)). apply srkn_one_time. }
  split.
  - rewrite failing_status. specialize (T 1%nat). cbn [iterated INR] in T. rewrite T.
    destruct (Rlt_dec (0 + 1 * 1 + 1 / 2 * 1) 1); [lra|reflexivity].
  - assert (A1 : accumulated 1 (srkn_one leapfrog failing 1) (srkn_status leapfrog failing 1) s0 Ok = OtherError 1).
    { cbn [accumulated Update]. rewrite failing_status. cbn [s0 time]. destruct (Rlt_dec (0 + 1 / 2 * 1) 1); [reflexivity|lra]. }
    assert (AC : forall n, accumulated (S n) (srkn_one leapfrog failing 1) (srkn_status leapfrog failing 1) s0 Ok = OtherError 1).
    { induction n as [|n IH]; [exact A1|]. rewrite accumulated_S, IH. reflexivity. }
    unfold srkn_solve. destruct (Req_EM_T 1 0) as [|_]; [lra|].
    assert (D : direction_check State time 1 3 s0 = true).
    { apply (direction_ok time 1); [lra|]. cbn. lra. }
    rewrite D. cbn [is_bab leapfrog composition]. cbn [Update].
    rewrite <- (AC 2%nat).
    apply (loop_run time (srkn_iterate leapfrog failing 1) 1 (srkn_one leapfrog failing 1) (srkn_status leapfrog failing 1) (srkn_good leapfrog failing)
             ltac:(lra) (srkn_hone leapfrog failing 1 C ltac:(rewrite E; lia) K) (srkn_one_time leapfrog failing 1) 3 3); try lia.
    + exact I.
    + unfold whole_steps. cbn. lra.
    + intros i Hi. destruct i as [|i]; [lia|]. rewrite AC. reflexivity.
    + left. split; [reflexivity|]. intros _. rewrite AC. reflexivity.
Qed.
(** The harmonic oscillator has a symmetric derivative. *)
Definition oscillator (t : R) (q : Vec) : Status * Vec := (Ok, fun d => - q d).
Lemma oscillator_symmetric : forall D, symmetric_derivative D (field oscillator) (fun _ _ i j => if Nat.eqb i j then -1 else 0).
Proof.
  intros D. split.
  - intros _ _ i j. rewrite Nat.eqb_sym. reflexivity.
  - intros t x u d Hd H. unfold field, oscillator. cbn [snd].
    replace (sum_to D (fun j => (if Nat.eqb d j then -1 else 0) * u j)) with (- u d).
    + apply derivable_pt_lim_opp. apply H. exact Hd.
    + clear H. revert d u Hd. induction D as [|D IH]; intros d u Hd; [lia|]. rewrite sum_to_S. destruct d as [|d].
      * cbn [Nat.eqb]. rewrite sum_to_0 by (intros; ring). ring.
      * cbn [Nat.eqb]. rewrite <- (IH d (fun j => u (S j))) by lia. ring.
Qed.
Lemma kutta_checks : rk_checks Kutta1901Vsigma1 = true /\ rk_stages Kutta1901Vsigma1 = 4%nat.
Proof.
  split; [|reflexivity]. unfold rk_checks, Kutta1901Vsigma1, rk_c_. cbn. rewrite Reqb_refl. reflexivity.
Qed.
(** The steps of the Runge-Kutta methods, and the calls to [Solve]. *)
Lemma rk_solution : forall m f h fuel s_final s N, rk_checks m = true -> (0 < rk_stages m)%nat -> h <> 0 ->
  (forall s y, fst (f s y) = Ok) -> rk_s s <> s_final -> whole_steps h (rk_s s) s_final N -> (N <= fuel)%nat ->
  exists Y : nat -> RKState, Y 0%nat = s /\
    (forall n, rk_s (Y (S n)) = rk_s (Y n) + h /\
       exists k, runge_kutta_step m (rhs f) h (rk_s (Y n)) (rk_y (Y n)) (rk_y (Y (S n))) k) /\
    rk_solve m f h fuel s_final s = Done (map Y (seq 1 N)) (Y N) Ok.
Proof.
  intros m f h fuel s_final s N C P Hh O Ne W F. exists (fun n => iterated n (rk_one m f h) s). split; [reflexivity|]. split.
  - intros n. rewrite iterated_S. apply (rk_one_spec m f h _ C).
  - apply rk_solve_ok; assumption.
Qed.
(** The same for the symplectic methods. *)
Lemma srkn_solution : forall m f h fuel t_final s N, srkn_checks m = true -> (2 <= stages m)%nat -> consistent m -> h <> 0 ->
  (forall t q, fst (f t q) = Ok) -> time s <> t_final -> whole_steps h (time s) t_final N -> (N <= fuel)%nat ->
  exists X : nat -> State, X 0%nat = s /\ (forall n, X (S n) = run (field f) (ops m h) (X n)) /\
    (forall n, time (X n) = time s + INR n * h) /\
    srkn_solve m f h fuel t_final s = Done (map X (seq 1 N)) (X N) Ok.
Proof.
  intros m f h fuel t_final s N C P K Hh O Ne W F. exists (fun n => iterated n (srkn_one m f h) s). split; [reflexivity|]. split; [|split].
  - intros n. rewrite iterated_S. apply srkn_one_spec; assumption.
  - intros n. apply iterated_time. intros s'. apply srkn_one_time.
  - apply srkn_solve_ok; assumption.
Qed.
