(** The control of the step size, for any method. *)
From Coq Require Import Reals List Bool Arith Lra Lia.
From Verif Require Import OneStep_Model OneStep_Proofs Adaptive_Model.
Import ListNotations.
Open Scope R_scope.

Lemma Rgeb_spec : forall x y, Rgeb x y = true <-> y <= x.
Proof. intros. unfold Rgeb. destruct (Rle_dec y x); split; intros; try reflexivity; try discriminate; lra. Qed.
Lemma Rgtb_spec : forall x y, Rgtb x y = true <-> y < x.
Proof. intros. unfold Rgtb. destruct (Rlt_dec y x); split; intros; try reflexivity; try discriminate; lra. Qed.
Lemma Rltb_spec : forall x y, Rltb x y = true <-> x < y.
Proof. intros. unfold Rltb. destruct (Rlt_dec x y); split; intros; try reflexivity; try discriminate; lra. Qed.
Lemma Reqb_spec : forall x y, Reqb x y = true <-> x = y.
Proof. intros. unfold Reqb. destruct (Req_EM_T x y); split; intros; try reflexivity; try discriminate; try assumption; contradiction. Qed.
Lemma Rgeb_false : forall x y, Rgeb x y = false <-> x < y.
Proof. intros. unfold Rgeb. destruct (Rle_dec y x); split; intros; try reflexivity; try discriminate; lra. Qed.
Lemma Rgtb_false : forall x y, Rgtb x y = false <-> x <= y.
Proof. intros. unfold Rgtb. destruct (Rlt_dec y x); split; intros; try reflexivity; try discriminate; lra. Qed.
Lemma Rltb_false : forall x y, Rltb x y = false <-> y <= x.
Proof. intros. unfold Rltb. destruct (Rlt_dec x y); split; intros; try reflexivity; try discriminate; lra. Qed.

Lemma sign_cases : forall x, sign x = 1 \/ sign x = -1.
Proof. intros. unfold sign. destruct (Rlt_dec x 0); tauto. Qed.
Lemma sign_pos : forall x, x <> 0 -> 0 < sign x * x.
Proof. intros. unfold sign. destruct (Rlt_dec x 0); lra. Qed.
Lemma Root_nonneg : forall n x, 0 <= Root n x.
Proof. intros. unfold Root. destruct (Rle_dec x 0); [lra|]. apply Rlt_le. unfold Rpower. apply exp_pos. Qed.
Lemma Root_lt_1 : forall n x, (0 < n)%nat -> x < 1 -> Root n x < 1.
Proof.
  intros n x Hn H. unfold Root. destruct (Rle_dec x 0); [lra|]. rewrite <- (Rpower_O 1) by lra.
  assert (P : 0 < / INR n) by (apply Rinv_0_lt_compat; apply (lt_INR 0); exact Hn).
  replace (Rpower 1 0) with (Rpower 1 (/ INR n)); [apply Rlt_Rpower_l; [exact P|lra]|].
  unfold Rpower. rewrite ln_1, !Rmult_0_r. reflexivity.
Qed.

Section Control.
  Context {S M : Type}.
  Variables (time : S -> R) (attempt : bool -> R -> S -> M -> R -> S * M * Status * R) (begin : S -> Status * M)
            (stops : bool) (lower_order : nat) (p : Parameters).
  (** The state after a step and its ratio, which depend on nothing else; [good] says what must be kept. *)
  Variables (one : S -> R -> S) (ratio : S -> R -> R) (good : S -> M -> Prop).
  Notation loop := (adaptive_loop S time M attempt stops lower_order p).
  Notation solve := (adaptive_solve S time M attempt begin stops lower_order p).
  Notation exact := (last_step_is_exact p).
  Notation d := (sign (first_step p)).
  Hypothesis Hattempt : forall at_end t_final s m h, good s m -> (at_end = true -> t_final = time s + h) ->
    exists m' st, attempt at_end t_final s m h = (one s h, m', st, ratio s h) /\ good (one s h) m'.
  Hypothesis Hbegin : forall s, good s (snd (begin s)).
  Hypothesis Htime : forall s h, time (one s h) = time s + h.
  Hypothesis Hsafety : 0 < safety_factor p.

  (** The states of [l], after [s], are obtained by steps in the direction of the integration with tolerable errors. *)
  Fixpoint tolerable (s : S) (l : list S) : Prop :=
    match l with
    | [] => True
    | s' :: l => (exists h, 0 < d * h /\ s' = one s h /\ 1 <= ratio s h) /\ tolerable s' l
    end.
  (** The states are not beyond the final time. *)
  Definition before_end (t_final : R) (l : list S) : Prop := forall s, In s l -> d * time s <= d * t_final.
  (** Ways to end an integration before the final time. *)
  Inductive stopped (count : nat) : Status -> Prop :=
  | stopped_count : count = max_steps p -> stopped count ReachedMaximalStepCount
  | stopped_vanishing : stopped count VanishingStepSize
  | stopped_aborted : stops = true -> stopped count Aborted.
  Definition result (t_final : R) (s : S) (count : nat) (l : list S) (i : AInstance S) (status : Status) : Prop :=
    first_use i = false /\ tolerable s l /\ before_end t_final l /\
    (a_state i = last l s /\ stopped (count + length l) status \/
     (if exact
      then exists l' s', l = l' ++ [s'] /\ time s' = t_final /\ a_state i = last l' s
      else a_state i = last l s /\ 1 <= ratio (a_state i) (a_step i) /\
           time (a_state i) <= t_final < time (a_state i) + a_step i)).

  Lemma adapt_direction : forall t h r, 0 < d * h -> Reqb (t + adapt lower_order p h r) t = false ->
    0 < d * adapt lower_order p h r.
  Proof.
    intros t h r Hh E. unfold adapt in *. set (k := safety_factor p * Root (lower_order + 1) r) in *.
    assert (K : 0 <= k) by (apply Rmult_le_pos; [lra|apply Root_nonneg]).
    assert (NK : k <> 0).
    { intros E0. rewrite E0, Rmult_0_r in E. assert (Reqb (t + 0) t = true) by (apply Reqb_spec; lra). congruence. }
    replace (d * (h * k)) with (d * h * k) by ring. apply Rmult_lt_0_compat; [exact Hh|lra].
  Qed.
  Lemma last_cons2 : forall (A : Type) (x y : A) l, last (x :: l) y = last l x.
  Proof.
    intros A x y l. revert x y. induction l as [|z l IH]; intros x y; [reflexivity|].
    change (last (x :: z :: l) y) with (last (z :: l) y). rewrite (IH z y), (IH z x). reflexivity.
  Qed.
  Lemma result_cons : forall t_final s s' count l i status,
    (exists h, 0 < d * h /\ s' = one s h /\ 1 <= ratio s h) -> d * time s' <= d * t_final ->
    result t_final s' (Datatypes.S count) l i status -> result t_final s count (s' :: l) i status.
  Proof.
    intros t_final s s' count l i status H B (F & T & Be & C). split; [exact F|]. split; [split; assumption|]. split.
    - intros x [<-|Hx]; [exact B|apply Be; exact Hx].
    - cbn [length]. destruct C as [[C1 C2]|C].
      + left. rewrite last_cons2. split; [exact C1|]. replace (count + Datatypes.S (length l))%nat with (Datatypes.S count + length l)%nat by lia. exact C2.
      + right. destruct exact.
        * destruct C as (l' & x & -> & T' & A). exists (s' :: l'), x. split; [reflexivity|]. split; [exact T'|]. rewrite last_cons2. exact A.
        * rewrite last_cons2. exact C.
  Qed.

  Lemma loop_sound : forall fuel t_final s m h count status l i status',
    good s m -> 0 < d * h -> (exact = true \/ d = 1) ->
    (if exact then d * time s < d * t_final else time s <= t_final) ->
    loop fuel t_final s m h count status = Done l i status' -> result t_final s count l i status'.
  Proof.
    induction fuel as [|fuel IH]; intros t_final s m h count status l i status' G Hh D B E; [discriminate|].
    cbn [adaptive_loop] in E.
    set (at_end := exact && Rgeb (d * h) (d * (t_final - time s))) in *.
    set (h1 := if at_end then t_final - time s else h) in *.
    assert (H1 : 0 < d * h1).
    { unfold h1. destruct at_end eqn:AE; [|exact Hh]. unfold at_end in AE. apply andb_true_iff in AE. destruct AE as [EX _]. rewrite EX in B. lra. }
    assert (TE : at_end = true -> t_final = time s + h1) by (intros Q; unfold h1; rewrite Q; lra).
    destruct (Hattempt at_end t_final s m h1 G TE) as (m' & st & Ea & G'). rewrite Ea in E.
    destruct (Rltb (ratio s h1) 1) eqn:Rj.
    - destruct (Reqb (time s + adapt lower_order p h1 (ratio s h1)) (time s)) eqn:V.
      + injection E as <- <- <-. split; [reflexivity|]. split; [exact I|]. split; [intros x []|]. left. split; [reflexivity|]. apply stopped_vanishing.
      + apply (IH t_final s m _ count status l i status' G (adapt_direction (time s) _ _ H1 V) D B E).
    - apply Rltb_false in Rj.
      destruct (negb exact && Rgtb (time s + h1) t_final) eqn:O.
      + injection E as <- <- <-. apply andb_true_iff in O. destruct O as [O1 O2]. apply negb_true_iff in O1. apply Rgtb_spec in O2.
        split; [reflexivity|]. split; [exact I|]. split; [intros x []|]. right. rewrite O1 in B |- *. cbn [a_state a_step last].
        split; [reflexivity|]. split; [exact Rj|]. lra.
      + assert (St : exists h, 0 < d * h /\ one s h1 = one s h /\ 1 <= ratio s h) by (exists h1; tauto).
        assert (B1 : d * time (one s h1) <= d * t_final /\
                     (at_end = false -> if exact then d * time (one s h1) < d * t_final else time (one s h1) <= t_final)).
        { rewrite Htime. unfold h1 in *. unfold at_end in *. destruct exact eqn:EX; cbn [andb negb] in O |- *.
          - destruct (Rgeb (d * h) (d * (t_final - time s))) eqn:GE; cbn [andb] in *.
            + split; [|discriminate]. replace (time s + (t_final - time s)) with t_final by ring. lra.
            + apply Rgeb_false in GE. split; [|intros _]; lra.
          - apply Rgtb_false in O. destruct D as [D|D]; [discriminate|]. rewrite D. split; [|intros _]; lra. }
        destruct (stops && IsAborted st) eqn:Ab.
        { injection E as <- <- <-. apply andb_true_iff in Ab. destruct Ab as [Ab1 Ab2]. destruct st; try discriminate.
          split; [reflexivity|]. split; [split; [exact St|exact I]|]. split; [intros x [<-|[]]; apply B1|]. left. split; [reflexivity|].
          apply stopped_aborted. exact Ab1. }
        destruct (Nat.eqb (Datatypes.S count) (max_steps p) && negb at_end) eqn:Mx.
        { injection E as <- <- <-. apply andb_true_iff in Mx. destruct Mx as [Mx1 _]. apply Nat.eqb_eq in Mx1.
          split; [reflexivity|]. split; [split; [exact St|exact I]|]. split; [intros x [<-|[]]; apply B1|]. left. split; [reflexivity|].
          apply stopped_count. cbn [length]. lia. }
        destruct at_end eqn:AE.
        { injection E as <- <- <-. split; [reflexivity|]. split; [split; [exact St|exact I]|]. split; [intros x [<-|[]]; apply B1|]. right.
          assert (EX : exact = true) by (symmetry in AE; unfold at_end in AE; destruct exact; [reflexivity|discriminate]).
          rewrite EX. exists [], (one s h1). split; [reflexivity|]. split; [|reflexivity]. rewrite Htime, <- TE; reflexivity. }
        destruct (Reqb (time (one s h1) + adapt lower_order p h1 (ratio s h1)) (time (one s h1))) eqn:V.
        { injection E as <- <- <-. split; [reflexivity|]. split; [split; [exact St|exact I]|]. split; [intros x [<-|[]]; apply B1|]. left. split; [reflexivity|].
          apply stopped_vanishing. }
        destruct (loop fuel t_final (one s h1) m' (adapt lower_order p h1 (ratio s h1)) (Datatypes.S count) (Update status st)) as [l2 i2 st2| |] eqn:EL;
          try discriminate.
        injection E as <- <- <-. apply result_cons; [exact St|apply B1|].
        apply (IH _ _ _ _ _ _ _ _ _ G' (adapt_direction _ _ _ H1 V) D (proj2 B1 eq_refl) EL).
  Qed.

  (** The direction of the step of an instance. *)
  Definition usable (i : AInstance S) : Prop := 0 < d * a_step i.
  Lemma solve_sound : forall fuel t_final i l i' status, usable i -> (exact = true \/ 0 <= first_step p) ->
    solve fuel t_final i = Done l i' status -> result t_final (a_state i) 0 l i' status.
  Proof.
    intros fuel t_final i l i' status U D E. unfold adaptive_solve in E.
    destruct (direction_check S time (first_step p) t_final (a_state i)) eqn:C; [|discriminate].
    destruct (first_use i || negb exact); [|discriminate].
    pose proof (Hbegin (a_state i)) as G. destruct (begin (a_state i)) as [st m]. cbn [snd] in G.
    assert (Dd : 0 < d * t_final - d * time (a_state i)).
    { unfold direction_check in C. unfold sign. destruct (Rlt_dec (first_step p) 0).
      - destruct (Rlt_dec t_final (time (a_state i))); [lra|discriminate].
      - destruct (Rlt_dec (time (a_state i)) t_final); [lra|discriminate]. }
    apply (loop_sound fuel t_final (a_state i) m (a_step i) 0 st l i' status G U); [| |exact E].
    - destruct D as [D|D]; [left; exact D|right]. unfold sign. destruct (Rlt_dec (first_step p) 0); lra.
    - destruct exact; [lra|]. destruct D as [D|D]; [discriminate|]. unfold sign in Dd. destruct (Rlt_dec (first_step p) 0); lra.
  Qed.

  (** * Termination *)
  Hypothesis Hsafety1 : safety_factor p < 1.
  Lemma fuel_more : forall fuel k t_final s m h count status, loop fuel t_final s m h count status <> NoFuel ->
    loop (fuel + k) t_final s m h count status = loop fuel t_final s m h count status.
  Proof.
    induction fuel as [|fuel IH]; intros k t_final s m h count status H; [exfalso; apply H; reflexivity|].
    cbn [adaptive_loop plus] in H |- *.
    destruct (attempt _ t_final s m _) as [[[s' m'] st] r]. destruct (Rltb r 1).
    - destruct (Reqb _ _); [reflexivity|]. apply IH. exact H.
    - destruct (negb exact && _); [reflexivity|]. destruct (stops && IsAborted st); [reflexivity|].
      destruct (Nat.eqb _ _ && _); [reflexivity|]. destruct (exact && _); [reflexivity|]. destruct (Reqb _ _); [reflexivity|].
      rewrite IH; [reflexivity|]. intros Q. rewrite Q in H. apply H. reflexivity.
  Qed.
  (** Small enough steps have tolerable errors. *)
  Hypothesis Hsmall : forall s, exists eta, 0 < eta /\ forall h, 0 < d * h <= eta -> 1 <= ratio s h.

  Lemma adapt_smaller : forall h r, 0 < d * h -> r < 1 -> d * adapt lower_order p h r <= d * h * safety_factor p.
  Proof.
    intros h r Hh Hr. unfold adapt. pose proof (Root_nonneg (lower_order + 1) r). pose proof (Root_lt_1 (lower_order + 1) r ltac:(lia) Hr).
    replace (d * (h * (safety_factor p * Root (lower_order + 1) r))) with (d * h * safety_factor p * Root (lower_order + 1) r) by ring.
    rewrite <- (Rmult_1_r (d * h * safety_factor p)) at 2. apply Rmult_le_compat_l; [|lra]. apply Rmult_le_pos; lra.
  Qed.
  Lemma loop_terminates : forall n t_final s m h count status, good s m -> 0 < d * h -> 
    (if exact then d * time s < d * t_final else True) ->
    (count + n = max_steps p)%nat -> (0 < n)%nat ->
    exists fuel, loop fuel t_final s m h count status <> NoFuel.
  Proof.
    induction n as [|n IHn]; intros t_final s m h count status G Hh B Hc Hn; [lia|].
    destruct (Hsmall s) as (eta & He & Small).
    assert (K : exists r, d * h * safety_factor p ^ r <= eta).
    { destruct (pow_lt_1_zero (safety_factor p) ltac:(rewrite Rabs_pos_eq; lra) (eta / (d * h))) as [r Hr].
      - apply Rdiv_lt_0_compat; assumption.
      - exists r. specialize (Hr r (le_n r)). rewrite Rabs_pos_eq in Hr by (apply pow_le; lra).
        apply Rlt_le. apply (Rmult_lt_compat_l (d * h)) in Hr; [|exact Hh].
        replace (d * h * (eta / (d * h))) with eta in Hr by (field; split; intros Z; rewrite Z in Hh; lra). exact Hr. }
    destruct K as [r K]. revert h Hh K. induction r as [|r IHr]; intros h Hh K.
    - (* The step is tolerable. *)
      assert (X : forall fuel, loop (Datatypes.S fuel) t_final s m h count status = loop (Datatypes.S fuel) t_final s m h count status) by reflexivity.
      set (at_end := exact && Rgeb (d * h) (d * (t_final - time s))).
      set (h1 := if at_end then t_final - time s else h).
      assert (H1 : 0 < d * h1 <= d * h).
      { unfold h1. destruct at_end eqn:AE; [|lra]. unfold at_end in AE. apply andb_true_iff in AE. destruct AE as [EX GE].
        rewrite EX in B. apply Rgeb_spec in GE. lra. }
      assert (TE : at_end = true -> t_final = time s + h1) by (intros Q; unfold h1; rewrite Q; lra).
      destruct (Hattempt at_end t_final s m h1 G TE) as (m' & st & Ea & G').
      assert (Rt : Rltb (ratio s h1) 1 = false) by (apply Rltb_false; apply Small; cbn in K; lra).
      destruct (Nat.eq_dec n 0) as [N0|N0].
      + exists 1%nat. cbn [adaptive_loop]. fold at_end. fold h1. rewrite Ea, Rt.
        destruct (negb exact && _); [discriminate|]. destruct (stops && IsAborted st); [discriminate|].
        destruct (Nat.eqb_spec (Datatypes.S count) (max_steps p)) as [_|Q]; [|lia]. destruct at_end; cbn [andb negb]; discriminate.
      + destruct (Reqb (time (one s h1) + adapt lower_order p h1 (ratio s h1)) (time (one s h1))) eqn:V.
        { exists 1%nat. cbn [adaptive_loop]. fold at_end. fold h1. rewrite Ea, Rt.
          destruct (negb exact && _); [discriminate|]. destruct (stops && IsAborted st); [discriminate|].
          destruct (_ && negb at_end); [discriminate|]. destruct at_end; [discriminate|]. rewrite V. discriminate. }
        destruct at_end eqn:AE.
        { exists 1%nat. cbn [adaptive_loop]. fold at_end. rewrite AE. fold h1. rewrite Ea, Rt.
          destruct (negb exact && _); [discriminate|]. destruct (stops && IsAborted st); [discriminate|].
          destruct (_ && negb true); discriminate. }
        destruct (IHn t_final (one s h1) m' (adapt lower_order p h1 (ratio s h1)) (Datatypes.S count) (Update status st) G') as [fuel F].
        * apply (adapt_direction (time (one s h1))); [lra|exact V].
        * destruct exact eqn:EX; [|exact I]. rewrite Htime. unfold h1. unfold at_end in AE. cbn [andb] in AE. apply Rgeb_false in AE. lra.
        * lia.
        * lia.
        * exists (Datatypes.S fuel). cbn [adaptive_loop]. fold at_end. rewrite AE. fold h1. rewrite Ea, Rt.
          destruct (negb exact && _); [discriminate|]. destruct (stops && IsAborted st); [discriminate|].
          destruct (_ && negb false); [discriminate|]. rewrite V. destruct (loop fuel _ _ _ _ _ _); [discriminate|discriminate|].
          exfalso. apply F. reflexivity.
    - (* Either it is accepted, or it becomes smaller. *)
      set (at_end := exact && Rgeb (d * h) (d * (t_final - time s))).
      set (h1 := if at_end then t_final - time s else h).
      assert (H1 : 0 < d * h1 <= d * h).
      { unfold h1. destruct at_end eqn:AE; [|lra]. unfold at_end in AE. apply andb_true_iff in AE. destruct AE as [EX GE].
        rewrite EX in B. apply Rgeb_spec in GE. lra. }
      assert (TE : at_end = true -> t_final = time s + h1) by (intros Q; unfold h1; rewrite Q; lra).
      destruct (Hattempt at_end t_final s m h1 G TE) as (m' & st & Ea & G').
      destruct (Rltb (ratio s h1) 1) eqn:Rt.
      + destruct (Reqb (time s + adapt lower_order p h1 (ratio s h1)) (time s)) eqn:V.
        * exists 1%nat. cbn [adaptive_loop]. fold at_end. fold h1. rewrite Ea, Rt, V. discriminate.
        * destruct (IHr (adapt lower_order p h1 (ratio s h1))) as [fuel F].
          -- apply (adapt_direction (time s)); [lra|exact V].
          -- apply Rle_trans with (2 := K). cbn [pow]. apply Rltb_spec in Rt.
             pose proof (adapt_smaller h1 (ratio s h1) (proj1 H1) Rt) as Sm.
             assert (Pw : 0 <= safety_factor p ^ r) by (apply pow_le; lra).
             replace (d * h * (safety_factor p * safety_factor p ^ r)) with (d * h * safety_factor p * safety_factor p ^ r) by ring.
             apply Rmult_le_compat_r; [exact Pw|]. apply Rle_trans with (1 := Sm). apply Rmult_le_compat_r; lra.
          -- exists (Datatypes.S fuel). cbn [adaptive_loop]. fold at_end. fold h1. rewrite Ea, Rt, V. exact F.
      + destruct (Nat.eq_dec n 0) as [N0|N0].
        { exists 1%nat. cbn [adaptive_loop]. fold at_end. fold h1. rewrite Ea, Rt.
          destruct (negb exact && _); [discriminate|]. destruct (stops && IsAborted st); [discriminate|].
          destruct (Nat.eqb_spec (Datatypes.S count) (max_steps p)) as [_|Q]; [|lia]. destruct at_end; cbn [andb negb]; discriminate. }
        destruct (Reqb (time (one s h1) + adapt lower_order p h1 (ratio s h1)) (time (one s h1))) eqn:V.
        { exists 1%nat. cbn [adaptive_loop]. fold at_end. fold h1. rewrite Ea, Rt.
          destruct (negb exact && _); [discriminate|]. destruct (stops && IsAborted st); [discriminate|].
          destruct (_ && negb at_end); [discriminate|]. destruct at_end; [discriminate|]. rewrite V. discriminate. }
        destruct at_end eqn:AE.
        { exists 1%nat. cbn [adaptive_loop]. fold at_end. rewrite AE. fold h1. rewrite Ea, Rt.
          destruct (negb exact && _); [discriminate|]. destruct (stops && IsAborted st); [discriminate|].
          destruct (_ && negb true); discriminate. }
        destruct (IHn t_final (one s h1) m' (adapt lower_order p h1 (ratio s h1)) (Datatypes.S count) (Update status st) G') as [fuel F].
        * apply (adapt_direction (time (one s h1))); [lra|exact V].
        * destruct exact eqn:EX; [|exact I]. rewrite Htime. unfold h1. unfold at_end in AE. cbn [andb] in AE. apply Rgeb_false in AE. lra.
        * lia.
        * lia.
        * exists (Datatypes.S fuel). cbn [adaptive_loop]. fold at_end. rewrite AE. fold h1. rewrite Ea, Rt.
          destruct (negb exact && _); [discriminate|]. destruct (stops && IsAborted st); [discriminate|].
          destruct (_ && negb false); [discriminate|]. rewrite V. destruct (loop fuel _ _ _ _ _ _); [discriminate|discriminate|].
          exfalso. apply F. reflexivity.
  Qed.
  Lemma loop_not_fatal : forall fuel t_final s m h count status, loop fuel t_final s m h count status <> Fatal.
  Proof. clear Hsmall.
    induction fuel as [|fuel IH]; intros t_final s m h count status; [discriminate|]. cbn [adaptive_loop].
    destruct (attempt _ t_final s m _) as [[[s' m'] st] r]. destruct (Rltb r 1).
    - destruct (Reqb _ _); [discriminate|]. apply IH.
    - destruct (negb exact && _); [discriminate|]. destruct (stops && IsAborted st); [discriminate|].
      destruct (Nat.eqb _ _ && _); [discriminate|]. destruct (exact && _); [discriminate|]. destruct (Reqb _ _); [discriminate|].
      match goal with |- context [loop fuel ?a ?b ?c ?e ?g ?k] => specialize (IH a b c e g k); destruct (loop fuel a b c e g k) end;
        [discriminate|exact IH|discriminate].
  Qed.
  Lemma direction_sign : forall t_final s, direction_check S time (first_step p) t_final s = true <-> d * time s < d * t_final.
  Proof. clear Hsmall.
    intros t_final s. unfold direction_check, sign. destruct (Rlt_dec (first_step p) 0).
    - destruct (Rlt_dec t_final (time s)); split; intros; try reflexivity; try discriminate; lra.
    - destruct (Rlt_dec (time s) t_final); split; intros; try reflexivity; try discriminate; lra.
  Qed.
  Lemma solve_terminates : forall t_final i, usable i -> d * time (a_state i) < d * t_final ->
    (first_use i = true \/ exact = false) -> (0 < max_steps p)%nat ->
    exists fuel0 l i' status, forall fuel, (fuel0 <= fuel)%nat -> solve fuel t_final i = Done l i' status.
  Proof.
    intros t_final i U D F Mx. unfold adaptive_solve. rewrite (proj2 (direction_sign _ _) D).
    replace (first_use i || negb exact) with true by (destruct F as [-> | ->]; [reflexivity|rewrite orb_true_r; reflexivity]).
    pose proof (Hbegin (a_state i)) as G. destruct (begin (a_state i)) as [st m]. cbn [snd] in G.
    destruct (loop_terminates (max_steps p) t_final (a_state i) m (a_step i) 0 st G U) as [fuel0 F0]; try lia.
    - destruct exact; [exact D|exact I].
    - pose proof (loop_not_fatal fuel0 t_final (a_state i) m (a_step i) 0 st) as NF.
      destruct (loop fuel0 t_final (a_state i) m (a_step i) 0 st) as [l i' status| |] eqn:E; [|exfalso; apply NF; reflexivity|exfalso; apply F0; reflexivity].
      exists fuel0, l, i', status. intros fuel Le. replace fuel with (fuel0 + (fuel - fuel0))%nat by lia.
      rewrite fuel_more by (rewrite E; discriminate). exact E.
  Qed.

  (** * Continuation *)
  Hypothesis Hok : forall at_end t_final s m h, snd (fst (attempt at_end t_final s m h)) = Ok.
  Lemma memory_irrelevant : forall fuel t_final s m m' h count status, good s m -> good s m' ->
    loop fuel t_final s m h count status = loop fuel t_final s m' h count status.
  Proof. clear Hsmall.
    induction fuel as [|fuel IH]; intros t_final s m m' h count status G G'; [reflexivity|]. cbn [adaptive_loop].
    set (at_end := exact && Rgeb (d * h) (d * (t_final - time s))). set (h1 := if at_end then t_final - time s else h).
    assert (TE : at_end = true -> t_final = time s + h1) by (intros Q; unfold h1; rewrite Q; lra).
    destruct (Hattempt at_end t_final s m h1 G TE) as (n & st & E & N). destruct (Hattempt at_end t_final s m' h1 G' TE) as (n' & st' & E' & N').
    pose proof (Hok at_end t_final s m h1) as O. rewrite E in O. cbn in O. subst st.
    pose proof (Hok at_end t_final s m' h1) as O. rewrite E' in O. cbn in O. subst st'. rewrite E, E'.
    destruct (Rltb _ 1).
    - destruct (Reqb _ _); [reflexivity|]. apply IH; assumption.
    - rewrite (IH t_final (one s h1) n n') by assumption. reflexivity.
  Qed.
  Lemma loop_continues : forall fuel t1 t2 s m h c1 c2 l1 i1, exact = false -> max_steps p = 0%nat -> t1 <= t2 -> good s m ->
    loop fuel t1 s m h c1 Ok = Done l1 i1 Ok ->
    exists m1, good (a_state i1) m1 /\ forall fuel2 l2 i2 st2, loop fuel2 t2 (a_state i1) m1 (a_step i1) (c2 + length l1) Ok = Done l2 i2 st2 ->
      loop (fuel + fuel2) t2 s m h c2 Ok = Done (l1 ++ l2) i2 st2.
  Proof. clear Hsmall.
    induction fuel as [|fuel IH]; intros t1 t2 s m h c1 c2 l1 i1 EX Mx T G E; [discriminate|].
    cbn [adaptive_loop] in E. rewrite EX in E. cbn [andb negb] in E.
    destruct (Hattempt false t1 s m h G ltac:(discriminate)) as (m' & st & Ea & G').
    destruct (Hattempt false t2 s m h G ltac:(discriminate)) as (m'' & st' & Ea' & G'').
    pose proof (Hok false t1 s m h) as O. rewrite Ea in O. cbn in O. subst st. pose proof (Hok false t2 s m h) as O. rewrite Ea' in O. cbn in O. subst st'.
    rewrite Ea in E. destruct (Rltb (ratio s h) 1) eqn:Rt.
    - destruct (Reqb (time s + adapt lower_order p h (ratio s h)) (time s)) eqn:V; [discriminate|].
      destruct (IH t1 t2 s m _ c1 c2 l1 i1 EX Mx T G E) as (m1 & G1 & C). exists m1. split; [exact G1|]. intros fuel2 l2 i2 st2 E2.
      cbn [adaptive_loop plus]. rewrite EX. cbn [andb negb]. rewrite Ea', Rt, V. apply (C fuel2 l2 i2 st2 E2).
    - destruct (Rgtb (time s + h) t1) eqn:O.
      + injection E as <- <-. exists m. split; [exact G|]. intros fuel2 l2 i2 st2 E2. cbn [a_state a_step length] in E2. rewrite Nat.add_0_r in E2.
        cbn [app]. rewrite Nat.add_comm. rewrite fuel_more; [exact E2|rewrite E2; discriminate].
      + assert (O2 : Rgtb (time s + h) t2 = false) by (apply Rgtb_false; apply Rgtb_false in O; lra).
        cbn [IsAborted Update] in E. rewrite andb_false_r in E.
        rewrite Mx in E. cbn [Nat.eqb andb] in E.
        destruct (Reqb (time (one s h) + adapt lower_order p h (ratio s h)) (time (one s h))) eqn:V; [discriminate|].
        destruct (loop fuel t1 (one s h) m' (adapt lower_order p h (ratio s h)) (Datatypes.S c1) Ok) as [l i st| |] eqn:EL; try discriminate.
        injection E as <- <- ->.
        destruct (IH t1 t2 (one s h) m' _ _ (Datatypes.S c2) l i EX Mx T G' EL) as (m1 & G1 & C). exists m1. split; [exact G1|].
        intros fuel2 l2 i2 st2 E2. cbn [length] in E2. replace (c2 + Datatypes.S (length l))%nat with (Datatypes.S c2 + length l)%nat in E2 by lia.
        cbn [adaptive_loop plus]. rewrite EX. cbn [andb negb]. rewrite Ea', Rt, O2. cbn [IsAborted Update]. rewrite andb_false_r, Mx. cbn [Nat.eqb andb].
        rewrite V. rewrite (memory_irrelevant _ _ _ m'' m') by assumption. rewrite (C fuel2 l2 i2 st2 E2). reflexivity.
  Qed.
  Lemma count_irrelevant : forall fuel t_final s m h c1 c2 status, max_steps p = 0%nat ->
    loop fuel t_final s m h c1 status = loop fuel t_final s m h c2 status.
  Proof. clear Hsmall.
    induction fuel as [|fuel IH]; intros t_final s m h c1 c2 status Mx; [reflexivity|]. cbn [adaptive_loop]. rewrite Mx.
    destruct (attempt _ t_final s m _) as [[[s' m'] st] r]. rewrite (IH t_final s m _ c1 c2) by exact Mx.
    rewrite (IH t_final s' m' _ (Datatypes.S c1) (Datatypes.S c2)) by exact Mx. reflexivity.
  Qed.
  Lemma solve_continues : forall fuel1 fuel2 t1 t2 i l1 i1 l2 i2 status, exact = false -> max_steps p = 0%nat -> 0 <= first_step p ->
    (forall s, fst (begin s) = Ok) -> usable i -> t1 <= t2 ->
    solve fuel1 t1 i = Done l1 i1 Ok -> solve fuel2 t2 i1 = Done l2 i2 status ->
    solve (fuel1 + fuel2) t2 i = Done (l1 ++ l2) i2 status.
  Proof. clear Hsmall.
    intros fuel1 fuel2 t1 t2 i l1 i1 l2 i2 status EX Mx FS B U T E1 E2. unfold adaptive_solve in *.
    destruct (direction_check S time (first_step p) t1 (a_state i)) eqn:D1; [|discriminate].
    destruct (direction_check S time (first_step p) t2 (a_state i1)) eqn:D2; [|discriminate].
    assert (D3 : direction_check S time (first_step p) t2 (a_state i) = true).
    { apply direction_sign in D1. apply direction_sign. unfold sign in *. destruct (Rlt_dec (first_step p) 0); lra. }
    rewrite D3. rewrite EX in *. cbn [negb] in *. rewrite orb_true_r in *.
    pose proof (Hbegin (a_state i)) as G. pose proof (B (a_state i)) as B0. destruct (begin (a_state i)) as [st m]. cbn in G, B0. subst st.
    pose proof (Hbegin (a_state i1)) as G1. pose proof (B (a_state i1)) as B1. destruct (begin (a_state i1)) as [st1 m1]. cbn in G1, B1. subst st1.
    destruct (loop_continues fuel1 t1 t2 (a_state i) m (a_step i) 0 0 l1 i1 EX Mx T G E1) as (m' & G' & C).
    apply C. rewrite (memory_irrelevant _ _ _ m' m1) by assumption. rewrite (count_irrelevant _ _ _ _ _ (0 + length l1) 0) by exact Mx. exact E2.
  Qed.
End Control.

(** * Integrations which go nowhere *)
Section Negative.
  Context {S M : Type}.
  Variables (time : S -> R) (attempt : bool -> R -> S -> M -> R -> S * M * Status * R) (begin : S -> Status * M)
            (stops : bool) (lower_order : nat) (p : Parameters).
  Notation solve := (adaptive_solve S time M attempt begin stops lower_order p).
  (** Backward, without an exact last step: if a step is tolerable and is not beyond the end, it is dropped. *)
  Lemma backward_stuck : forall fuel t_final i s' m' st ratio, last_step_is_exact p = false -> first_step p < 0 ->
    t_final < time (a_state i) + a_step i -> a_step i < 0 -> fst (begin (a_state i)) = Ok ->
    attempt false t_final (a_state i) (snd (begin (a_state i))) (a_step i) = (s', m', st, ratio) -> 1 <= ratio ->
    solve (Datatypes.S fuel) t_final i = Done [] (mkAInstance (a_state i) (a_step i) false) st.
  Proof.
    intros fuel t_final i s' m' st ratio EX FS T H B A Rt. unfold adaptive_solve, direction_check.
    destruct (Rlt_dec (first_step p) 0); [|lra]. destruct (Rlt_dec t_final (time (a_state i))); [|lra].
    rewrite EX. cbn [negb]. rewrite orb_true_r. destruct (begin (a_state i)) as [st0 m]. cbn in B, A. subst st0.
    cbn [adaptive_loop]. rewrite EX. cbn [andb negb]. rewrite A.
    rewrite (proj2 (Rltb_false ratio 1) Rt). rewrite (proj2 (Rgtb_spec _ _) T). reflexivity.
  Qed.
  (** An instance with an exact last step cannot be used again. *)
  Lemma exact_reuse : forall fuel1 fuel2 t1 t2 i l i1 status, last_step_is_exact p = true ->
    solve fuel1 t1 i = Done l i1 status -> solve fuel2 t2 i1 = Fatal.
  Proof.
    intros fuel1 fuel2 t1 t2 i l i1 status EX E.
    assert (F : forall fuel t s m h c st l i' st', adaptive_loop S time M attempt stops lower_order p fuel t s m h c st = Done l i' st' -> first_use i' = false).
    { clear. induction fuel as [|fuel IH]; intros t s m h c st l i' st' E; [discriminate|]. cbn [adaptive_loop] in E.
      destruct (attempt _ t s m _) as [[[s' m'] st1] r].
      repeat match type of E with
             | (if ?b then _ else _) = _ => destruct b
             | Done _ _ _ = Done _ _ _ => injection E as <- <- <-; reflexivity
             end.
      - apply (IH _ _ _ _ _ _ _ _ _ E).
      - match type of E with match ?x with _ => _ end = _ => destruct x eqn:EL; try discriminate end. injection E as <- <- <-.
        apply (IH _ _ _ _ _ _ _ _ _ EL). }
    unfold adaptive_solve in *. destruct (direction_check _ _ _ _ (a_state i1)); [|reflexivity].
    destruct (direction_check _ _ _ _ (a_state i)); [|discriminate]. destruct (first_use i || _); [|discriminate].
    destruct (begin (a_state i)) as [st0 m]. apply F in E. rewrite E, EX. reflexivity.
  Qed.
End Negative.
