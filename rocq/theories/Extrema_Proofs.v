(* Proofs about the golden-section search. *)
From Coq Require Import Reals List Bool Arith ZArith Lia Lra.
From Verif Require Import Extrema_Model Extrema_Spec.
Import ListNotations.

(* ------------------------------------------------------------ any arithmetic *)

Section Generic.
Context {T : Type} (A : arithmetic T).

Section Order.
Variable P : T -> Prop.
Variable compare : T -> T -> bool.
Hypothesis SWO : strict_weak_order P compare.

Lemma swo_asym : forall x y, P x -> P y -> compare x y = true -> compare y x = false.
Proof.
  destruct SWO as (I & Tr & _). intros x y Px Py H. destruct (compare y x) eqn:E; [|reflexivity].
  specialize (I x Px). rewrite (Tr x y x Px Py Px H E) in I. discriminate.
Qed.

Lemma std_min_P : forall x y, P x -> P y -> P (std_min compare x y).
Proof. intros x y Px Py. unfold std_min. destruct (compare y x); assumption. Qed.

(* Nothing is better than the minimum. *)
Lemma std_min_l : forall x y, P x -> P y -> compare x (std_min compare x y) = false.
Proof.
  intros x y Px Py. unfold std_min. destruct (compare y x) eqn:E.
  - apply swo_asym; assumption.
  - destruct SWO as (I & _). apply I. exact Px.
Qed.
Lemma std_min_r : forall x y, P x -> P y -> compare y (std_min compare x y) = false.
Proof.
  intros x y Px Py. unfold std_min. destruct (compare y x) eqn:E; [|exact E].
  destruct SWO as (I & _). apply I. exact Py.
Qed.

Definition best (s : @golden T) : T :=
  std_min compare (std_min compare (f_lower s) (f_lower_interior s))
    (std_min compare (f_upper_interior s) (f_upper s)).

Definition all_P (s : @golden T) :=
  P (f_lower s) /\ P (f_lower_interior s) /\ P (f_upper_interior s) /\ P (f_upper s).

Lemma best_P : forall s, all_P s -> P (best s).
Proof. intros s (H1 & H2 & H3 & H4). unfold best. repeat apply std_min_P; assumption. Qed.

Lemma best_in : forall s, In (best s) (values s).
Proof.
  intros s. unfold best, values. unfold std_min.
  repeat match goal with |- context[if ?c then _ else _] => destruct c end; cbn [In]; auto.
Qed.

Lemma best_best : forall s v, all_P s -> In v (values s) -> compare v (best s) = false.
Proof.
  intros s v HP Hv. pose proof HP as (H1 & H2 & H3 & H4). pose proof SWO as (_ & _ & N).
  pose proof (best_P s HP) as PB.
  assert (L : compare (std_min compare (f_lower s) (f_lower_interior s)) (best s) = false)
    by (apply std_min_l; apply std_min_P; assumption).
  assert (U : compare (std_min compare (f_upper_interior s) (f_upper s)) (best s) = false)
    by (apply std_min_r; apply std_min_P; assumption).
  destruct Hv as [<-|[<-|[<-|[<-|[]]]]].
  - apply (N _ (std_min compare (f_lower s) (f_lower_interior s)) _); auto using std_min_P, std_min_l.
  - apply (N _ (std_min compare (f_lower s) (f_lower_interior s)) _); auto using std_min_P, std_min_r.
  - apply (N _ (std_min compare (f_upper_interior s) (f_upper s)) _); auto using std_min_P, std_min_l.
  - apply (N _ (std_min compare (f_upper_interior s) (f_upper s)) _); auto using std_min_P, std_min_r.
Qed.

Variable f : T -> T.
Hypothesis fP : forall x, P (f x).

Lemma step_P : forall s, all_P s -> all_P (golden_step A compare f s).
Proof.
  intros s (H1 & H2 & H3 & H4). unfold golden_step.
  destruct (compare _ _); cbn; repeat split; cbn; auto.
Qed.

(* The best of the values is kept. *)
Lemma step_best : forall s v, all_P s -> In v (values s) ->
  compare v (best (golden_step A compare f s)) = false.
Proof.
  intros s v HP Hv. pose proof HP as (H1 & H2 & H3 & H4). pose proof SWO as (I & Tr & N).
  pose proof (step_P s HP) as HP'. pose proof (best_P _ HP') as PB.
  set (s' := golden_step A compare f s) in *.
  assert (K : forall w, In w (values s') -> compare w (best s') = false) by (intros; apply best_best; assumption).
  assert (PL : P (std_min compare (f_lower s) (f_lower_interior s))) by (apply std_min_P; assumption).
  assert (PU : P (std_min compare (f_upper_interior s) (f_upper s))) by (apply std_min_P; assumption).
  destruct (compare (std_min compare (f_lower s) (f_lower_interior s))
              (std_min compare (f_upper_interior s) (f_upper s))) eqn:E.
  - assert (V : In (f_lower s) (values s') /\ In (f_lower_interior s) (values s') /\ In (f_upper_interior s) (values s')).
    { unfold s', golden_step. rewrite E. cbn. auto 8. }
    destruct V as (V1 & V2 & V3). destruct Hv as [<-|[<-|[<-|[<-|[]]]]]; [apply K; exact V1|apply K; exact V2|apply K; exact V3|].
    assert (ML : compare (std_min compare (f_lower s) (f_lower_interior s)) (best s') = false).
    { unfold std_min. destruct (compare (f_lower_interior s) (f_lower s)); apply K; assumption. }
    destruct (compare (f_upper s) (best s')) eqn:F; [|reflexivity]. exfalso.
    assert (X : compare (f_upper s) (std_min compare (f_lower s) (f_lower_interior s)) = true).
    { destruct (compare (f_upper s) (std_min compare (f_lower s) (f_lower_interior s))) eqn:G; [reflexivity|].
      rewrite (N _ _ _ H4 PL PB G ML) in F. discriminate. }
    pose proof (Tr _ _ _ H4 PL PU X E) as Y. rewrite std_min_r in Y by assumption. discriminate.
  - assert (V : In (f_lower_interior s) (values s') /\ In (f_upper_interior s) (values s') /\ In (f_upper s) (values s')).
    { unfold s', golden_step. rewrite E. cbn. auto 8. }
    destruct V as (V1 & V2 & V3). destruct Hv as [<-|[<-|[<-|[<-|[]]]]]; [|apply K; exact V1|apply K; exact V2|apply K; exact V3].
    assert (MU : compare (std_min compare (f_upper_interior s) (f_upper s)) (best s') = false).
    { unfold std_min. destruct (compare (f_upper s) (f_upper_interior s)); apply K; assumption. }
    apply (N _ (std_min compare (f_lower s) (f_lower_interior s)) _ H1 PL PB).
    + apply std_min_l; assumption.
    + apply (N _ _ _ PL PU PB E MU).
Qed.

Lemma iter_P : forall k s, all_P s -> all_P (Nat.iter k (golden_step A compare f) s).
Proof. induction k; intros s H; cbn [Nat.iter]; [exact H|]. apply step_P. apply IHk. exact H. Qed.

Lemma iter_best : forall k s v, all_P s -> In v (values s) ->
  compare v (best (Nat.iter k (golden_step A compare f) s)) = false.
Proof.
  induction k as [|k IH]; intros s v HP Hv; [apply best_best; assumption|]. cbn [Nat.iter].
  pose proof SWO as (_ & _ & N). set (s' := Nat.iter k (golden_step A compare f) s) in *.
  pose proof (iter_P k s HP) as HP'. fold s' in HP'.
  assert (Pv : P v).
  { destruct HP as (H1 & H2 & H3 & H4). destruct Hv as [<-|[<-|[<-|[<-|[]]]]]; assumption. }
  apply (N _ (best s') _ Pv (best_P _ HP') (best_P _ (step_P _ HP')) (IH s v HP Hv)).
  apply step_best; [exact HP'|]. apply best_in.
Qed.
End Order.

Lemma iter_succ_r : forall (X : Type) (g : X -> X) k x, Nat.iter (S k) g x = Nat.iter k g (g x).
Proof. intros X g k x. induction k as [|k IH]; [reflexivity|]. change (g (Nat.iter (S k) g x) = g (Nat.iter k g (g x))). rewrite IH. reflexivity. Qed.

(* The loop is an iteration. *)
Lemma loop_iter : forall fuel compare f s s', golden_loop A fuel compare f s = Some s' ->
  exists k, s' = Nat.iter k (golden_step A compare f) s /\ golden_continue A s' = false /\
    forall i, (i < k)%nat -> golden_continue A (Nat.iter i (golden_step A compare f) s) = true.
Proof.
  induction fuel as [|n IH]; intros compare f s s' E; [discriminate|]. cbn [golden_loop] in E.
  destruct (golden_continue A s) eqn:C.
  - destruct (IH compare f _ s' E) as (k & -> & C' & H). exists (S k).
    rewrite iter_succ_r. split; [reflexivity|]. split; [exact C'|].
    intros i Hi. destruct i as [|i]; [exact C|]. rewrite iter_succ_r. apply H. lia.
  - injection E as <-. exists 0%nat. split; [reflexivity|]. split; [exact C|]. intros i Hi. lia.
Qed.

(* Termination. *)
Section Rank.
Variable rank : T -> Z.
Hypothesis less_rank : forall x y, less A x y = true -> (rank x < rank y)%Z.

Lemma continue_rank : forall s, golden_continue A s = true ->
  (rank (lower s) < rank (lower_interior s) < rank (upper_interior s) /\
   rank (upper_interior s) < rank (upper s))%Z.
Proof.
  intros s H. unfold golden_continue in H. apply andb_true_iff in H. destruct H as [H H3].
  apply andb_true_iff in H. destruct H as [H1 H2]. apply less_rank in H1, H2, H3. lia.
Qed.

Lemma step_rank : forall compare f s, golden_continue A s = true ->
  let s' := golden_step A compare f s in
  (rank (lower s) <= rank (lower s') /\ rank (upper s') <= rank (upper s) /\
   rank (lower s') < rank (upper s') /\
   rank (upper s') - rank (lower s') < rank (upper s) - rank (lower s))%Z.
Proof.
  intros compare f s C. apply continue_rank in C. unfold golden_step.
  destruct (compare _ _); cbn; lia.
Qed.

Lemma loop_terminates : forall compare f fuel s,
  (Z.to_nat (rank (upper s) - rank (lower s)) < fuel)%nat ->
  exists s', golden_loop A fuel compare f s = Some s'.
Proof.
  intros compare f. induction fuel as [|n IH]; intros s H; [lia|]. cbn [golden_loop].
  destruct (golden_continue A s) eqn:C; [|eexists; reflexivity].
  apply IH. pose proof (step_rank compare f s C) as R. cbv zeta in R. apply continue_rank in C. lia.
Qed.

Lemma loop_bounds : forall compare f fuel s s', golden_loop A fuel compare f s = Some s' ->
  (rank (lower s) < rank (upper s))%Z ->
  (rank (lower s) <= rank (lower s') /\ rank (lower s') < rank (upper s') /\ rank (upper s') <= rank (upper s))%Z.
Proof.
  intros compare f. induction fuel as [|n IH]; intros s s' E L; [discriminate|]. cbn [golden_loop] in E.
  destruct (golden_continue A s) eqn:C; [|injection E as <-; lia].
  pose proof (step_rank compare f s C) as R. cbv zeta in R. specialize (IH _ _ E). lia.
Qed.
End Rank.
End Generic.

(* --------------------------------------------------------------- the reals *)

Local Open Scope R_scope.

Lemma golden_square : golden_ratio * golden_ratio = golden_ratio + 1.
Proof.
  unfold golden_ratio. assert (S : sqrt 5 * sqrt 5 = 5) by (apply sqrt_sqrt; lra).
  replace ((1 + sqrt 5) / 2 * ((1 + sqrt 5) / 2)) with ((1 + 2 * sqrt 5 + sqrt 5 * sqrt 5) / 4) by field.
  rewrite S. field.
Qed.
Lemma golden_bounds : 8 / 5 < golden_ratio < 5 / 3.
Proof.
  assert (P : 0 < golden_ratio).
  { unfold golden_ratio. pose proof (sqrt_pos 5). lra. }
  pose proof golden_square. split; nra.
Qed.

Notation c := (2 - golden_ratio).

Lemma less_reals : forall x y, less reals x y = true <-> x < y.
Proof. intros. cbn. destruct (Rlt_dec x y); split; intros; try discriminate; try contradiction; auto. Qed.

(* The interior points are at the golden sections. *)
Definition sectioned (f : R -> R) (s : @golden R) :=
  lower s < upper s /\
  lower_interior s = lower s + c * (upper s - lower s) /\
  upper_interior s = upper s - c * (upper s - lower s) /\
  f_lower s = f (lower s) /\ f_lower_interior s = f (lower_interior s) /\
  f_upper_interior s = f (upper_interior s) /\ f_upper s = f (upper s).

Lemma start_sectioned : forall f l u, l < u -> sectioned f (golden_start reals f l u).
Proof.
  intros f l u H. unfold golden_start, sectioned, BarycentreWeighted. cbn.
  replace (golden_ratio - 1 + c) with 1 by ring. replace (c + (golden_ratio - 1)) with 1 by ring.
  repeat split; [exact H|field|field].
Qed.

Lemma sectioned_order : forall f s, sectioned f s ->
  lower s < lower_interior s < upper_interior s /\ upper_interior s < upper s.
Proof. intros f s (H & -> & -> & _). pose proof golden_bounds. nra. Qed.

Lemma sectioned_continue : forall f s, sectioned f s -> golden_continue reals s = true.
Proof.
  intros f s H. apply sectioned_order in H. unfold golden_continue.
  rewrite !andb_true_iff, !less_reals. lra.
Qed.

Lemma step_sectioned : forall compare f s, sectioned f s ->
  sectioned f (golden_step reals compare f s) /\
  upper (golden_step reals compare f s) - lower (golden_step reals compare f s)
  = (golden_ratio - 1) * (upper s - lower s).
Proof.
  intros compare f s H. pose proof (sectioned_order f s H) as O.
  destruct H as (H & L & U & F1 & F2 & F3 & F4). pose proof golden_square as Q.
  unfold golden_step. destruct (compare _ _); unfold sectioned; cbn.
  - split; [|rewrite U; ring]. repeat split; try assumption.
    + lra.
    + rewrite L, U. nra.
    + rewrite L, U. nra.
  - split; [|rewrite L; ring]. repeat split; try assumption.
    + lra.
    + rewrite L, U. nra.
    + rewrite L, U. nra.
Qed.

Lemma iter_sectioned : forall compare f k s, sectioned f s ->
  sectioned f (Nat.iter k (golden_step reals compare f) s) /\
  upper (Nat.iter k (golden_step reals compare f) s) - lower (Nat.iter k (golden_step reals compare f) s)
  = (golden_ratio - 1) ^ k * (upper s - lower s).
Proof.
  intros compare f k s H. induction k as [|k [IH1 IH2]]; [split; [exact H|cbn; ring]|].
  destruct (step_sectioned compare f _ IH1) as [S1 S2]. split; [exact S1|].
  change (Nat.iter (S k) (golden_step reals compare f) s)
    with (golden_step reals compare f (Nat.iter k (golden_step reals compare f) s)).
  rewrite S2, IH2. cbn [pow]. ring.
Qed.

(* The exact search never ends. *)
Lemma loop_reals : forall fuel compare f s, sectioned f s -> golden_loop reals fuel compare f s = None.
Proof.
  induction fuel as [|n IH]; intros compare f s H; [reflexivity|]. cbn [golden_loop].
  rewrite (sectioned_continue f s H). apply IH. apply step_sectioned. exact H.
Qed.

Lemma step_contains : forall compare f l u m s, strict_weak_order (fun _ => True) compare ->
  unimodal compare f l u m -> sectioned f s -> l <= lower s -> upper s <= u ->
  lower s <= m <= upper s ->
  let s' := golden_step reals compare f s in lower s' <= m <= upper s' /\ l <= lower s' /\ upper s' <= u.
Proof.
  intros compare f l u m s SWO (B & D & I) H L U M. pose proof (sectioned_order f s H) as O.
  destruct H as (_ & _ & _ & F1 & F2 & F3 & F4).
  pose proof (fun x y => swo_asym (fun _ => True) compare SWO x y Logic.I Logic.I) as AS.
  destruct SWO as (Ir & Tr & Ng). cbv zeta. unfold golden_step.
  destruct (compare _ _) eqn:E; cbn.
  - split; [|lra]. split; [lra|]. apply Rnot_lt_le. intros X.
    assert (C1 : compare (f_lower_interior s) (f_lower s) = true) by (rewrite F1, F2; apply D; lra).
    assert (C2 : compare (f_upper_interior s) (f_lower_interior s) = true) by (rewrite F2, F3; apply D; lra).
    unfold std_min in E. rewrite C1 in E. destruct (compare (f_upper s) (f_upper_interior s)) eqn:C3.
    + pose proof (Tr _ _ _ Logic.I Logic.I Logic.I C3 C2) as C4. apply AS in C4. congruence.
    + apply AS in C2. congruence.
  - split; [|lra]. split; [|lra]. apply Rnot_lt_le. intros X.
    assert (C1 : compare (f_lower_interior s) (f_upper_interior s) = true) by (rewrite F2, F3; apply I; lra).
    assert (C2 : compare (f_upper_interior s) (f_upper s) = true) by (rewrite F3, F4; apply I; lra).
    unfold std_min in E. rewrite (AS _ _ C2) in E.
    destruct (compare (f_lower_interior s) (f_lower s)) eqn:C3; [congruence|].
    rewrite (Ng _ _ _ Logic.I Logic.I Logic.I C3 E) in C1. discriminate.
Qed.

Lemma iter_contains : forall compare f l u m k, strict_weak_order (fun _ => True) compare ->
  unimodal compare f l u m -> l < u ->
  let s := Nat.iter k (golden_step reals compare f) (golden_start reals f l u) in
  lower s <= m <= upper s /\ l <= lower s /\ upper s <= u.
Proof.
  intros compare f l u m k SWO UM LU. cbv zeta. induction k as [|k IH].
  - cbn. destruct UM as (B & _). lra.
  - cbn [Nat.iter]. destruct IH as (I1 & I2 & I3). apply (step_contains compare f l u m); try assumption.
    apply iter_sectioned. apply start_sectioned. exact LU.
Qed.
