(** C92: the continuous trajectories. *)
From Coq Require Import ZArith Bool List Lia.
From Verif Require Import ContinuousTrajectory_Model ContinuousTrajectory_Spec ContinuousTrajectory_Proofs ContinuousTrajectory_Proofs2.
Import ListNotations.
Open Scope Z_scope.

(** The points may be appended exactly if they are separated by the step. *)
Theorem C92_append : forall (Point Poly : Type) (newhall : Z -> list Point -> Z -> Z -> Poly * Z) (spaced : Z -> Z -> bool), forall tol (l : list (Z * Point)), 0 < tol < max_length / 2 ->
  (exists s, append_all newhall spaced (New tol) l = Some s) <-> steps spaced l.
Proof. exact (@append_all_iff). Qed.
Print Assumptions C92_append.

(** The polynomials approximate the successive groups of 9 points, the last point of each being the first of the next one; the other points are kept. *)
Theorem C92_polynomials : forall (Point Poly : Type) (newhall : Z -> list Point -> Z -> Z -> Poly * Z) (spaced : Z -> Z -> bool), forall tol l s, 0 < tol < max_length / 2 -> append_all newhall spaced (New tol) l = Some s ->
  let k := length (polynomials_ s) in
  first_time_ s = match l with [] => None | (t, _) :: _ => Some t end /\ last_points_ s = skipn (8 * k) l /\ (l = [] -> k = O) /\ (l <> [] -> (8 * k < length l <= 8 * k + 8)%nat) /\
  forall i t p, nth_error (polynomials_ s) i = Some (t, p) -> approximates newhall l i t p.
Proof.
  intros Point Poly newhall spaced tol l s T H k. destruct (inv_reachable newhall spaced tol l s T H) as (_ & _ & F & _ & _ & K). cbv zeta in K. destruct K as (LP & E & L & AP).
  split; [exact F |]. split; [exact LP |]. split; [intros X; unfold k; rewrite (E X); reflexivity |]. split; [exact L | exact AP].
Qed.
Print Assumptions C92_polynomials.

(** The degree and its age are bounded, and the adjusted tolerance is the tolerance unless the approximation is unstable. *)
Theorem C92_degree : forall (Point Poly : Type) (newhall : Z -> list Point -> Z -> Z -> Poly * Z) (spaced : Z -> Z -> bool), forall tol l s, 0 < tol < max_length / 2 -> append_all newhall spaced (New tol) l = Some s ->
  tolerance_ s = tol /\ 3 <= degree_ s <= 17 /\ 0 <= degree_age_ s <= 100 /\ tol <= adjusted_tolerance_ s /\ (is_unstable_ s = false -> adjusted_tolerance_ s = tol).
Proof. intros Point Poly newhall spaced tol l s T H. destruct (inv_reachable newhall spaced tol l s T H) as ((_ & G) & <- & _). split; [reflexivity | exact G]. Qed.
Print Assumptions C92_degree.

(** The age is the number of approximations since the degree was last computed from the minimal one, which happens at the latest after 100 approximations. *)
Theorem C92_age : forall (Point Poly : Type) (newhall : Z -> list Point -> Z -> Z -> Poly * Z) s points a b,
  let age := degree_age_ (fst (ComputeBestNewhallApproximation newhall s points a b)) in
  (age = 1 /\ (100 <= degree_age_ s \/ is_unstable_ s = true)) \/ (age = degree_age_ s + 1 /\ degree_age_ s < 100).
Proof.
  intros Point Poly newhall s points a b. cbv zeta. unfold ComputeBestNewhallApproximation. cbn [fst degree_age_]. unfold best_fit.
  assert (V : forall f : @fit Poly, f_age (revert_if_unstable f) = f_age f + 1) by (intros f; unfold revert_if_unstable; destruct (f_error f >=? f_previous f); reflexivity).
  assert (I : forall n (f : @fit Poly), f_age (increase_degree newhall n points a b f) = f_age f).
  { induction n as [| n IH]; intros f; cbn [increase_degree]; [reflexivity |].
    destruct ((f_error f >? f_tolerance f) && (f_error f <? f_previous f) && (f_degree f <? max_degree)); [| reflexivity].
    destruct (newhall (f_degree f + 1) points a b). rewrite IH. reflexivity. }
  rewrite V, I. unfold restart_if_old, max_degree_age. destruct (degree_age_ s >=? 100) eqn:A.
  - left. split; [| left; lia]. unfold restart_if_unstable, first_fit. destruct (newhall _ _ _ _). reflexivity.
  - unfold restart_if_unstable, first_fit. destruct (newhall _ _ _ _) as [p e]. cbn [f_unstable f_error f_tolerance]. destruct (is_unstable_ s) eqn:U; cbn [andb].
    + destruct (e >? adjusted_tolerance_ s); [left; split; [reflexivity | right; reflexivity] | right; split; [reflexivity | lia]].
    + right. split; [reflexivity | lia].
Qed.
Print Assumptions C92_age.

(** A polynomial that is appended is within the tolerance, or has the maximal degree, unless the approximation is unstable. *)
Theorem C92_approximation : forall (Point Poly : Type) (newhall : Z -> list Point -> Z -> Z -> Poly * Z) (spaced : Z -> Z -> bool), forall tol l s points a b, 0 < tol < max_length / 2 -> append_all newhall spaced (New tol) l = Some s ->
  let (s', ok) := ComputeBestNewhallApproximation newhall s points a b in
  (ok = true <-> adjusted_tolerance_ s' < 1000000 * adjusted_tolerance_ s) /\
  exists d e p, polynomials_ s' = polynomials_ s ++ [(b, p)] /\ newhall d points a b = (p, e) /\ 3 <= d <= 17 /\
    (is_unstable_ s' = true \/ e <= adjusted_tolerance_ s' /\ adjusted_tolerance_ s' = tol \/ d = 17 /\ adjusted_tolerance_ s' = tol).
Proof.
  intros Point Poly newhall spaced tol l s points a b T H. destruct (inv_reachable newhall spaced tol l s T H) as (G & Q & _).
  destruct (best_fit_ok newhall s points a b G) as (_ & _ & _ & U & d & e & N & D & K). unfold ComputeBestNewhallApproximation.
  generalize dependent (best_fit newhall s points a b). intros f U N K. cbn [adjusted_tolerance_ polynomials_ is_unstable_]. split; [apply Z.ltb_lt |]. exists d, e, (f_polynomial f). split; [reflexivity |].
  split; [exact N |]. split; [exact D |]. destruct (f_unstable f); [left; reflexivity | right]. rewrite <- Q, <- (U eq_refl). destruct K as [K | [K | K]]; [discriminate | left | right]; auto.
Qed.
Print Assumptions C92_approximation.

(** Evaluation is defined exactly between t_min and t_max; the polynomial is that of an interval that contains the time, whatever the cache. *)
Theorem C92_evaluate : forall (Point Poly : Type) (newhall : Z -> list Point -> Z -> Z -> Poly * Z) (spaced : Z -> Z -> bool), forall tol l s c time, (forall a b, spaced a b = true -> a < b) -> 0 < tol < max_length / 2 -> append_all newhall spaced (New tol) l = Some s ->
  match t_min s, t_max s with
  | Some a, Some b =>
    if (a <=? time) && (time <=? b)
    then exists p c' i u q t, Evaluate (with_cache s c) time = Some (p, with_cache s c') /\ approximates newhall l i t p /\
           nth_error l (8 * i) = Some (u, q) /\ time <= t /\ (u < time \/ i = 0%nat /\ time = u)
    else Evaluate (with_cache s c) time = None
  | _, _ => Evaluate (with_cache s c) time = None /\ (length l <= 8)%nat
  end.
Proof. exact (fun _ _ newhall spaced tol l s c time Sp T H => evaluate_ok newhall spaced tol l s c time Sp (inv_reachable newhall spaced tol l s T H)). Qed.
Print Assumptions C92_evaluate.

(** Reading a checkpoint after appending more points gives the trajectory at the checkpoint. *)
Theorem C92_checkpoint : forall (Point Poly : Type) (newhall : Z -> list Point -> Z -> Z -> Poly * Z) (spaced : Z -> Z -> bool), forall tol l m s s' c, (forall a b, spaced a b = true -> a < b) -> 0 < tol < max_length / 2 -> append_all newhall spaced (New tol) l = Some s ->
  append_all newhall spaced s m = Some s' -> ReadFromCheckpoint (WriteToCheckpoint s) (with_cache s' c) = s.
Proof. exact (fun _ _ newhall spaced tol l m s s' c Sp T H A => checkpoint_ok newhall spaced tol l m s s' Sp (inv_reachable newhall spaced tol l s T H) A c). Qed.
Print Assumptions C92_checkpoint.

(** After prepending, the evaluation is that of the prefix up to its end, and that of the trajectory afterwards. *)
Definition prepended {Point Poly : Type} (s prefix r : trajectory Point Poly) : Prop :=
  exists b, t_max prefix = Some b /\ t_min s = Some b /\ t_min r = t_min prefix /\ t_max r = t_max s /\
  forall c c1 c2 time,
    option_map fst (Evaluate (with_cache r c) time) = option_map fst (if time <=? b then Evaluate (with_cache prefix c1) time else Evaluate (with_cache s c2) time).
Theorem C92_prepend_partial : forall (Point Poly : Type) (newhall : Z -> list Point -> Z -> Z -> Poly * Z) (spaced : Z -> Z -> bool), forall tol l s l' prefix r, (forall a b, spaced a b = true -> a < b) -> 0 < tol < max_length / 2 ->
  append_all newhall spaced (New tol) l = Some s -> append_all newhall spaced (New tol) l' = Some prefix ->
  polynomials_ s <> [] -> polynomials_ prefix <> [] -> Prepend s prefix = Some r -> prepended s prefix r.
Proof.
  exact (fun _ _ newhall spaced tol l s l' prefix r Sp T H H' => prepend_ok newhall spaced tol l s tol l' prefix r Sp (inv_reachable newhall spaced tol l s T H) (inv_reachable newhall spaced tol l' prefix T H')).
Qed.
Print Assumptions C92_prepend_partial.

(** For the examples, the polynomial is its degree and the instant of its first point; the instants are multiples of 10. *)
Definition example_spaced (a b : Z) : bool := b =? a + 10.
Definition example_points (t : Z) (n : nat) : list (Z * unit) := map (fun i => (t + 10 * Z.of_nat i, tt)) (seq 0 n).
Definition example_newhall (error : Z -> Z) (d : Z) (_ : list unit) (t_min t_max : Z) : (Z * Z) * Z := ((d, t_min), error d).

(** The polynomial that is kept when the error increases is not the best one: its error may be much larger than the adjusted tolerance, with an OK status. *)
Theorem C92_tolerance_refuted : ~ forall (newhall : Z -> list unit -> Z -> Z -> (Z * Z) * Z) spaced tol l s points a b, 0 < tol < max_length / 2 ->
  append_all newhall spaced (New tol) l = Some s ->
  let (s', ok) := ComputeBestNewhallApproximation newhall s points a b in
  exists d e p, polynomials_ s' = polynomials_ s ++ [(b, p)] /\ newhall d points a b = (p, e) /\ (e <= adjusted_tolerance_ s' \/ degree_ s' = 17).
Proof.
  intros H. specialize (H (example_newhall (fun d => if d =? 3 then 100 else 1000000)) example_spaced 1 [] (New 1) [] 0 80 ltac:(split; vm_compute; reflexivity) eq_refl).
  vm_compute in H. destruct H as (d & e & p & A & B & C). injection A as <-. injection B as -> <-. destruct C as [C | C]; [apply C; reflexivity | discriminate].
Qed.
Print Assumptions C92_tolerance_refuted.
(** A vanishing error makes the approximation unstable. *)
Theorem C92_stable_refuted : ~ forall (newhall : Z -> list unit -> Z -> Z -> (Z * Z) * Z) spaced tol l s points a b, 0 < tol < max_length / 2 ->
  append_all newhall spaced (New tol) l = Some s -> (forall d, snd (newhall d points a b) <= tol) ->
  is_unstable_ (fst (ComputeBestNewhallApproximation newhall s points a b)) = false.
Proof.
  intros H. specialize (H (example_newhall (fun d => 0)) example_spaced 1 [] (New 1) [] 0 80 ltac:(split; vm_compute; reflexivity) eq_refl ltac:(intros d; cbn; lia)).
  vm_compute in H. discriminate.
Qed.
Print Assumptions C92_stable_refuted.
(** If a trajectory has points but no polynomial, they are lost by Prepend, and the next point may not be appended. *)
Theorem C92_prepend_refuted : ~ forall (newhall : Z -> list unit -> Z -> Z -> (Z * Z) * Z) spaced tol l s l' prefix r t p, (forall a b, spaced a b = true -> a < b) -> 0 < tol < max_length / 2 ->
  append_all newhall spaced (New tol) l = Some s -> append_all newhall spaced (New tol) l' = Some prefix -> first_time_ s = t_max prefix -> Prepend s prefix = Some r ->
  Append newhall spaced s t p <> None -> Append newhall spaced r t p <> None.
Proof.
  intros H. set (n := example_newhall (fun d => 1)).
  let s := eval vm_compute in (append_all n example_spaced (New 2) (example_points 80 3)) in
  let q := eval vm_compute in (append_all n example_spaced (New 2) (example_points 0 9)) in
  match s with Some ?s => match q with Some ?q => let r := eval vm_compute in (Prepend s q) in match r with Some ?r =>
  apply (H n example_spaced 2 (example_points 80 3) s (example_points 0 9) q r 110 tt) end end end.
  - intros a b. unfold example_spaced. rewrite Z.eqb_eq. lia.
  - split; vm_compute; reflexivity.
  - vm_compute. reflexivity.
  - vm_compute. reflexivity.
  - vm_compute. reflexivity.
  - vm_compute. reflexivity.
  - vm_compute. discriminate.
  - vm_compute. reflexivity.
Qed.
Print Assumptions C92_prepend_refuted.

(** 21 points, of which the last ones are not yet approximated; the error is halved by each degree. *)
Example C92_example : exists s s', let n := example_newhall (fun d => 2 ^ (20 - d)) in
  append_all n example_spaced (New 100) (example_points 0 21) = Some s /\
  polynomials_ s = [(80, (14, 0)); (160, (14, 80))] /\ last_points_ s = example_points 160 5 /\ degree_ s = 14 /\ degree_age_ s = 2 /\ is_unstable_ s = false /\
  t_min s = Some 0 /\ t_max s = Some 160 /\
  option_map fst (Evaluate s 0) = Some (14, 0) /\ option_map fst (Evaluate s 80) = Some (14, 0) /\ option_map fst (Evaluate (with_cache s 1) 81) = Some (14, 80) /\
  option_map fst (Evaluate s 161) = None /\
  append_all n example_spaced s (example_points 210 6) = Some s' /\ length (polynomials_ s') = 3%nat /\ ReadFromCheckpoint (WriteToCheckpoint s) s' = s /\
  append_all n example_spaced s (example_points 220 1) = None.
Proof.
  let s := eval vm_compute in (append_all (example_newhall (fun d => 2 ^ (20 - d))) example_spaced (New 100) (example_points 0 21)) in
  let s' := eval vm_compute in (append_all (example_newhall (fun d => 2 ^ (20 - d))) example_spaced (New 100) (example_points 0 27)) in
  match s with Some ?s => match s' with Some ?s' => exists s, s' end end.
  cbv zeta. vm_compute. repeat split.
Qed.
