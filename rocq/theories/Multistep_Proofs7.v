(** The multistep integrators stop when the right-hand side asks them to. *)
From Coq Require Import Reals List Bool Arith Lra Lia.
From Verif Require Import OneStep_Model Multistep_Tables Multistep_Model.
Import ListNotations.
Open Scope R_scope.

(** [n] steps from the steps [P 0] that end at [t]: all the evaluations succeed but the last one, which returns [Aborted]. *)
Definition steps_until_abort {P : Type} (advance : list P -> R -> P * Status) (h t : R) (Ps : nat -> list P) (n : nat) : Prop :=
  forall j, (j < n)%nat -> exists p, advance (Ps j) (t + INR j * h) = (p, if Nat.eqb (j + 1) n then Aborted else Ok) /\ Ps (j + 1)%nat = tl (Ps j ++ [p]).
Lemma loop_abort : forall (S P : Type) (advance : list P -> R -> P * Status) (new_state : list P -> S) h n fuel t_final s Ps index t,
  (1 <= n <= fuel)%nat -> 0 < h -> t + INR n * h <= t_final -> steps_until_abort advance h t Ps n ->
  multistep_loop S P advance new_state h fuel t_final (mkInstance s (Ps 0%nat) index) t Ok
  = Done (map (fun j => new_state (Ps j)) (seq 1 n)) (mkInstance (new_state (Ps n)) (Ps n) index) Aborted.
Proof.
  intros S P advance new_state h n. induction n as [|n IH]; intros fuel t_final s Ps index t F Hh T H; [lia|].
  destruct fuel as [|fuel]; [lia|]. cbn [multistep_loop previous_steps startup_step_index]. rewrite S_INR in T. pose proof (pos_INR n) as Pn.
  destruct (Rle_dec h (t_final - t)) as [Q|Q]; [|exfalso; apply Q; nra]. destruct (H 0%nat ltac:(lia)) as (p & A & E). cbn [INR] in A.
  rewrite Rmult_0_l, Rplus_0_r in A. rewrite A. cbv beta iota zeta. cbn [Nat.add] in E. unfold Push. cbn [previous_steps]. rewrite <- E. cbn [Nat.add Nat.eqb] in *.
  destruct n as [|n].
  - cbn. reflexivity.
  - cbn [Update IsAborted]. rewrite (IH fuel t_final _ (fun j => Ps (Datatypes.S j)) index (t + h)); [|lia|exact Hh|rewrite S_INR in *; lra|].
    + f_equal. change (seq 1 (Datatypes.S (Datatypes.S n))) with (1%nat :: seq 2 (Datatypes.S n)). rewrite <- (seq_shift (Datatypes.S n) 1). cbn [map]. rewrite map_map. reflexivity.
    + intros j Hj. destruct (H (Datatypes.S j) ltac:(lia)) as (p' & A' & E'). exists p'. cbn [Nat.add Nat.eqb] in *. split; [|exact E'].
      rewrite <- A'. f_equal. rewrite S_INR. ring.
Qed.
Lemma solve_abort : forall (S P : Type) state_time p_time k fill startup_solve (advance : list P -> R -> P * Status) (new_state : list P -> S) h n fuel t_final s l p Ps index,
  Ps 0%nat = l ++ [p] -> length (Ps 0%nat) = k -> (1 <= n <= fuel)%nat -> 0 < h -> p_time p + INR n * h <= t_final -> steps_until_abort advance h (p_time p) Ps n ->
  multistep_solve S P state_time p_time k fill startup_solve advance new_state h fuel t_final (mkInstance s (Ps 0%nat) index)
  = Done (map (fun j => new_state (Ps j)) (seq 1 n)) (mkInstance (new_state (Ps n)) (Ps n) index) Aborted.
Proof.
  intros S P state_time p_time k fill startup_solve advance new_state h n fuel t_final s l p Ps index E L F Hh T H.
  unfold multistep_solve, started. cbn [previous_steps]. rewrite L, Nat.eqb_refl. unfold started. cbn [previous_steps]. rewrite L, Nat.eqb_refl. destruct (Rlt_dec 0 h) as [_|N]; [|contradiction].
  rewrite E at 1. rewrite rev_app_distr. cbn [rev app]. rewrite (loop_abort S P advance new_state h n fuel t_final s Ps index (p_time p) F Hh T H). reflexivity.
Qed.
