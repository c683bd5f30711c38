(** C76: the orders of the symplectic methods. *)
From Coq Require Import Reals List Bool Arith ZArith QArith Qreals Lra Lia.
From Verif Require Import OneStep_Model OneStep_Proofs Adaptive_Model Adaptive_Tables Symplectic_Tables Adaptive_Proofs3 Order_Proofs2 Order_Proofs4 Order_Proofs7 Order_Proofs8 Order_Proofs9 Order_Props.
Import ListNotations.
Open Scope R_scope.

(** The steps of the integrator with method [m], started on the solution [q], [v] of the equations of right-hand sides [f], have
    an error of order [p + 1] in the step, except for [defect * h]. *)
Definition symplectic_steps (f : nat -> expr) (t0 : R) (q v : R -> Vec) (d : nat) (m : SRKN) (p : nat) (defect : R) : Prop :=
  exists C H, 0 < H /\ forall g h, (forall t q, snd (g t q) = acceleration f t q vzero) -> 0 < Rabs h <= H ->
    let '(s', _, _) := srkn_iterate m g h (mkState t0 (q t0) (v t0)) (acceleration f t0 (q t0) vzero) in
    time s' = t0 + h /\ Rabs (positions s' d - q (t0 + h) d) <= defect * Rabs h + C * Rabs h ^ (p + 1) /\
    Rabs (velocities s' d - v (t0 + h) d) <= defect * Rabs h + C * Rabs h ^ (p + 1).

(** If the order conditions hold within [eps], the defect is at most proportional to [eps]; the factor does not depend on the
    method. *)
Theorem C76_error : forall p, (1 <= p)%nat -> forall f t0 q v, (forall d, defined (f d) t0 (q t0) (v t0) /\ uses true false (f d)) -> solution f t0 q v ->
  forall d, exists K, 0 <= K /\ forall m eps, srkn_checks m = true -> (0 < stages m)%nat -> 0 <= eps -> srkn_conditions_within eps m p ->
  symplectic_steps f t0 q v d m p (eps * K).
Proof. exact srkn_order_within. Qed.
Print Assumptions C76_error.

(** The methods of the code pass the verifications of the constructor, and satisfy the conditions of their orders. *)
Theorem C76_nystrom_tables : forall t, In t nystrom_tables ->
  srkn_checks (srkn_of t) = true /\ (0 < stages (srkn_of t))%nat /\ srkn_conditions_within (/ IZR (10 ^ 14)) (srkn_of t) (y_order t).
Proof. intros t H. pose proof nystrom_tables_ok as T. rewrite forallb_forall in T. exact (table_ok_spec _ t (T t H)). Qed.
Print Assumptions C76_nystrom_tables.
Theorem C76_partitioned_tables : forall t c m, In t (firstn 18 partitioned_tables) -> AsSRKN (sprk_of t) c = Some m ->
  srkn_checks m = true /\ (0 < stages m)%nat /\ srkn_conditions_within (/ IZR (10 ^ 14)) m (p_order t).
Proof. intros t c m H. pose proof partitioned_tables_ok as T. rewrite forallb_forall in T. exact (partitioned_ok_spec _ t c m (T t H)). Qed.
Print Assumptions C76_partitioned_tables.
Theorem C76_yoshida_tables : map snd yoshida_tables = skipn 18 partitioned_tables /\
  forall E t c m, In (E, t) yoshida_tables -> AsSRKN (sprk_of t) c = Some m ->
  srkn_checks m = true /\ (0 < stages m)%nat /\ srkn_conditions_within (/ IZR E) m (p_order t).
Proof. split; [reflexivity|]. intros E t c m H. pose proof yoshida_tables_ok as T. rewrite forallb_forall in T. exact (partitioned_ok_spec E t c m (T (E, t) H)). Qed.
Print Assumptions C76_yoshida_tables.
(** The coefficients of these tables are the doubles closest to those that are written. *)
Theorem C76_coefficients :
  (forall t x, In t partitioned_tables -> In x (p_a t ++ p_b t) ->
    is_double (Q2R (double_of x)) /\ forall y, is_double y -> Rabs (Q2R (double_of x) - Q2R x) <= Rabs (y - Q2R x)) /\
  (forall t x, In t nystrom_tables -> In x (y_a t ++ y_b t) ->
    is_double (Q2R (double_of x)) /\ forall y, is_double y -> Rabs (Q2R (double_of x) - Q2R x) <= Rabs (y - Q2R x)).
Proof. exact (conj partitioned_doubles nystrom_doubles). Qed.
Print Assumptions C76_coefficients.
(** The coefficients of the methods of order 8 of Yoshida are written with 20 digits, but in the methods C and D they are wrong
    from the 13th digit: the condition [sum b_i c_i ^ 7 = 1 / 8] does not even hold to 13 digits with the numbers that are written
    (methods.hpp, lines 1275-1357); it holds to 15 digits for the others. *)
Theorem C76_yoshida_refuted :
  (forall t, In t [Yoshida1990Order8C; Yoshida1990Order8D] -> / IZR (10 ^ 13) < Rabs (moment (written t) 7 - 1 / 8)) /\
  (forall t, In t [Yoshida1990Order8A; Yoshida1990Order8B; Yoshida1990Order8E] -> Rabs (moment (written t) 7 - 1 / 8) <= / IZR (10 ^ 15)).
Proof. split; apply Forall_forall; [exact yoshida_inaccurate|exact yoshida_accurate]. Qed.
Print Assumptions C76_yoshida_refuted.
(** The leapfrog method, whose coefficients are doubles, has the order 2. *)
Theorem C76_leapfrog : forall c m, AsSRKN NewtonDelambreStormerVerletLeapfrog c = Some m ->
  forall f t0 q v, (forall d, defined (f d) t0 (q t0) (v t0) /\ uses true false (f d)) -> solution f t0 q v -> forall d, symplectic_steps f t0 q v d m 2 0.
Proof.
  intros c m Hm f t0 q v Hf Sol d. destruct (leapfrog_conditions c m Hm) as (Ck & SP & W). destruct (srkn_order_within 2 ltac:(lia) f t0 q v Hf Sol d) as (K & _ & X).
  specialize (X m 0 Ck SP ltac:(lra) W). rewrite Rmult_0_l in X. exact X.
Qed.
Print Assumptions C76_leapfrog.

(** A body on a circle around a centre of attraction. *)
Example C76_circle_example : exists m, AsSRKN NewtonDelambreStormerVerletLeapfrog BAB = Some m /\ forall d, symplectic_steps attraction 0 circle_q circle_v d m 2 0.
Proof.
  eexists. split; [reflexivity|]. intros d. destruct C75_circle_example as [H S].
  exact (C76_leapfrog BAB _ eq_refl attraction 0 circle_q circle_v H S d).
Qed.
(** There are 31 tables; the closest double to a tenth. *)
Example C76_tables_example : length partitioned_tables = 23%nat /\ length nystrom_tables = 8%nat /\ length yoshida_tables = 5%nat /\
  map y_order nystrom_tables = [4; 6; 6; 4; 4; 4; 5; 6]%nat /\ Qred (double_of (1 # 10)) = (3602879701896397 # 36028797018963968)%Q.
Proof. repeat split. Qed.
