(** Proofs about downsampling. *)
From Coq Require Import Reals List Bool Lra Psatz Arith Lia.
From Verif Require Import Geometry_Model Hermite_Model Hermite_Proofs Downsampling_Model.
Import ListNotations.
Open Scope R_scope.

(** ** Norms *)
Lemma Norm2_nonneg v : 0 <= Norm2 v. Proof. unfold Norm2. pose proof (Rle_0_sqr (cx v)). pose proof (Rle_0_sqr (cy v)). pose proof (Rle_0_sqr (cz v)). unfold Rsqr in *. lra. Qed.
Lemma Norm_nonneg v : 0 <= Norm v. Proof. apply sqrt_pos. Qed.
Lemma Norm_sq v : Norm v * Norm v = Norm2 v. Proof. apply sqrt_sqrt. apply Norm2_nonneg. Qed.
Lemma dot_le u v : Dot u v <= Norm u * Norm v.
Proof.
  assert (H : Dot u v * Dot u v <= Norm2 u * Norm2 v).
  { unfold Dot, Norm2. destruct u as [a b c], v as [d e f]. cbn [cx cy cz]. 
    pose proof (Rle_0_sqr (a * e - b * d)). pose proof (Rle_0_sqr (a * f - c * d)). pose proof (Rle_0_sqr (b * f - c * e)). unfold Rsqr in *. lra. }
  pose proof (Norm_nonneg u) as Hu. pose proof (Norm_nonneg v) as Hv. rewrite <- (Norm_sq u), <- (Norm_sq v) in H.
  pose proof (Rmult_le_pos _ _ Hu Hv). destruct (Rle_dec (Dot u v) (Norm u * Norm v)) as [|N]; [assumption|exfalso].
  apply Rnot_le_lt in N. assert (Norm u * Norm v * (Norm u * Norm v) < Dot u v * Dot u v) by (apply Rmult_le_0_lt_compat; assumption). lra.
Qed.
Lemma triangle u v : Norm (add3 u v) <= Norm u + Norm v.
Proof.
  pose proof (Norm_nonneg u) as Hu. pose proof (Norm_nonneg v) as Hv. pose proof (dot_le u v) as Hd.
  unfold Norm at 1. rewrite <- (sqrt_square (Norm u + Norm v)) by lra. apply sqrt_le_1_alt.
  replace ((Norm u + Norm v) * (Norm u + Norm v)) with (Norm2 u + 2 * (Norm u * Norm v) + Norm2 v) by (rewrite <- (Norm_sq u), <- (Norm_sq v); ring).
  replace (Norm2 (add3 u v)) with (Norm2 u + 2 * Dot u v + Norm2 v); [lra|]. unfold Norm2, Dot, add3. cbn [cx cy cz]. ring.
Qed.
Lemma Norm_sub_self v : Norm (sub3 v v) = 0.
Proof. unfold Norm, Norm2, sub3. cbn [cx cy cz]. replace (_ + _) with 0 by ring. apply sqrt_0. Qed.

(** ** Specification *)

(** The point [p] of the history is represented by the segment, the distance being less than [b] if it was dropped. *)
Definition represented (b : R) (s : segment) (p : point) : Prop :=
  exists x, EvaluatePosition (ptime p) s = Some x /\ (x = pposition p \/ Norm (sub3 x (pposition p)) < b).

(** The time range of a segment. *)
Definition in_range (s : segment) (p : point) : Prop :=
  match timeline s with [] => False | e :: _ => etime (last (timeline s) e) <= ptime p <= etime e end.

(** [history b s H n]: [s] is obtained by a sequence of operations, with tolerances at most [b]; [H] are the points
    that were appended and are in the time range that was not forgotten since; [n] is the number of times that the
    segment was saved and read again. *)
Inductive history (b : R) : segment -> (point -> Prop) -> nat -> Prop :=
| history_new : history b new (fun _ => False) 0
| history_clear s H n : history b s H n -> history b (clear s) (fun _ => False) n
| history_set s H n tol s' : history b s H n -> tol <= b -> SetDownsampling tol s = Some s' -> history b s' H n
| history_unset s H n : history b s H n -> history b (ClearDownsampling s) H n
| history_append s H n p s' : history b s H n -> Append p s = Some s' ->
    history b s' (fun q => H q \/ q = p /\ (exists e r, timeline s' = Element p e :: r)) n
| history_forget_after s H n t : history b s H n -> history b (ForgetAfter t s) (fun q => H q /\ in_range (ForgetAfter t s) q) n
| history_forget_before s H n t : history b s H n -> history b (ForgetBefore t s) (fun q => H q /\ in_range (ForgetBefore t s) q) n
| history_reload s H n s' : history b s H n -> ReadFromMessage (WriteToMessage s) = Some s' -> history b s' H (S n).

(** ** Invariant *)
Fixpoint linked (l : list element) : Prop :=
  match l with
  | [] => True
  | e :: r =>
      match r with
      | [] => interpolation e = None
      | f :: _ => etime f < etime e /\ exists error, interpolation e = Some (Interpolate (dof f) (dof e), error) /\ 0 <= error
      end /\ linked r
  end.

Definition close (b : R) (n : nat) (H : point -> Prop) (f e : element) : Prop :=
  forall h error, interpolation e = Some (h, error) ->
  forall p, H p -> etime f < ptime p < etime e -> Norm (sub3 (evaluate h (ptime p)) (pposition p)) <= error + INR n * b /\ error < b.

Fixpoint faithful (b : R) (n : nat) (H : point -> Prop) (l : list element) : Prop :=
  match l with
  | [] => True
  | e :: r =>
      (forall p, H p -> ptime p = etime e -> pposition p = pposition (dof e)) /\
      match r with [] => True | f :: _ => close b n H f e end /\ faithful b n H r
  end.

Definition last_close (b : R) (n : nat) (H : point -> Prop) (s : segment) : Prop :=
  match timeline s with
  | Element p (Some (h, error)) :: f :: _ =>
      forall q, H q -> etime f < ptime q < ptime p -> Norm (sub3 (evaluate h (ptime q)) (pposition q)) <= downsampling_error s + INR n * b
  | _ => True
  end.

Record inv (b : R) (s : segment) (H : point -> Prop) (n : nat) : Prop := Inv {
  inv_linked : linked (timeline s);
  inv_faithful : faithful b n H (timeline s);
  inv_last : last_close b n H s;
  inv_error : 0 <= downsampling_error s;
  inv_tol : match tolerance s with Some tol => tol <= b | None => True end;
  inv_range : forall p, H p -> in_range s p
}.

Lemma faithful_weaken b n (H H' : point -> Prop) l : (forall p, H' p -> H p) -> faithful b n H l -> faithful b n H' l.
Proof.
  intros Hw. induction l as [|e r IH]; [trivial|]. intros (A & C & D). split; [|split].
  - intros p Hp. apply A. apply Hw. exact Hp.
  - destruct r as [|f r]; [trivial|]. intros h error E p Hp. apply (C h error E). apply Hw. exact Hp.
  - apply IH. exact D.
Qed.

Lemma last_default (l : list element) d d' : l <> [] -> last l d = last l d'.
Proof. induction l as [|a l IH]; intros Hn; [contradiction|]. destruct l; [reflexivity|]. cbn [last] in *. apply IH. discriminate. Qed.
Lemma linked_last l : forall e r, l = e :: r -> linked l -> (r = [] \/ etime (last l e) < etime e).
Proof.
  induction l as [|a l IH]; intros e r E L; [discriminate|]. injection E as -> ->. destruct r as [|f r]; [left; reflexivity|]. right.
  destruct L as [[Lt _] L]. change (last (e :: f :: r) e) with (last (f :: r) e). destruct (IH f r eq_refl L) as [->|Hl]; [cbn; exact Lt|].
  rewrite (last_default (f :: r) e f) by discriminate. lra.
Qed.

Lemma linked_all l : forall e r f, l = e :: r -> linked l -> In f r -> etime f < etime e.
Proof.
  induction l as [|a l IH]; intros e r f E L Hf; [discriminate|]. injection E as -> ->. destruct r as [|g r]; [destruct Hf|].
  destruct L as [[Lt _] L]. destruct Hf as [<-|Hf]; [exact Lt|]. pose proof (IH g r f eq_refl L Hf). lra.
Qed.

Lemma in_last (l : list element) d : l <> [] -> In (last l d) l.
Proof. induction l as [|a l IH]; intros Hn; [contradiction|]. destruct l; [left; reflexivity|]. right. apply IH. discriminate. Qed.

(** ** Evaluation *)
Lemma evaluate_ok b n (H : point -> Prop) l e r p : 0 <= INR n * b -> l = e :: r -> linked l -> faithful b n H l -> H p -> etime (last l e) <= ptime p <= etime e ->
  exists f, lower_bound (ptime p) l = Some f /\
   ((etime f = ptime p /\ pposition (dof f) = pposition p) \/
    (etime f <> ptime p /\ exists h error, interpolation f = Some (h, error) /\ Norm (sub3 (evaluate h (ptime p)) (pposition p)) < INR (S n) * b)).
Proof.
  intros Hb. revert e r. induction l as [|a l IH]; intros e r E L F Hp Hr; [discriminate|]. injection E as -> ->. cbn [lower_bound].
  destruct (Rlt_dec (etime e) (ptime p)) as [|_]; [lra|]. destruct F as (F1 & F2 & F3). destruct L as [L1 L2]. destruct r as [|f r].
  - cbn in Hr. cbn [lower_bound]. exists e. split; [reflexivity|]. left. split; [lra|]. symmetry. apply F1; [exact Hp|lra].
  - destruct L1 as (Lt & error & Li & Le). destruct (Rle_dec (ptime p) (etime f)) as [Hle|Hgt].
    + destruct (IH f r eq_refl L2 F3 Hp) as (g & Eg & Hg).
      { split; [|exact Hle]. change (last (e :: f :: r) e) with (last (f :: r) e) in Hr. rewrite (last_default (f :: r) f e) by discriminate. lra. }
      rewrite Eg. exists g. split; [reflexivity|exact Hg].
    + assert (En : lower_bound (ptime p) (f :: r) = None). { cbn [lower_bound]. destruct (Rlt_dec (etime f) (ptime p)); [reflexivity|lra]. }
      rewrite En. exists e. split; [reflexivity|]. destruct (Req_EM_T (etime e) (ptime p)) as [Ee|Ne].
      * left. split; [exact Ee|]. symmetry. apply F1; [exact Hp|lra].
      * right. split; [exact Ne|]. exists (Interpolate (dof f) (dof e)), error. split; [exact Li|].
        destruct (F2 _ _ Li p Hp) as [B1 B2]; [lra|]. rewrite S_INR. lra.
Qed.

(** ** Operations *)
Lemma subtract_ok lo p q : ptime lo < ptime q -> ptime q < ptime p ->
  exists d, subtract (Interpolate lo p) (Interpolate lo q) = Some d /\ 0 <= LInfinityL2Norm d /\
  forall t, ptime lo <= t <= ptime q -> Norm (sub3 (evaluate (Interpolate lo p) t) (evaluate (Interpolate lo q) t)) <= LInfinityL2Norm d.
Proof.
  intros H1 H2. unfold Interpolate.
  destruct (interpolates (ptime lo) (ptime p) (pposition lo) (pposition p) (pvelocity lo) (pvelocity p)) as (A1 & A2 & A3 & A4 & A5 & A6); [lra|].
  destruct (interpolates (ptime lo) (ptime q) (pposition lo) (pposition q) (pvelocity lo) (pvelocity q)) as (B1 & B2 & B3 & B4 & B5 & B6); [lra|].
  set (h := MakeHermite3 _ (ptime p) _ _ _ _) in *. set (g := MakeHermite3 _ (ptime q) _ _ _ _) in *.
  unfold subtract. rewrite A5, B5, A6, B6. destruct (Req_EM_T (ptime lo) (ptime lo)) as [_|N]; [|exfalso; apply N; reflexivity].
  rewrite Rmin_right by lra. eexists. split; [reflexivity|]. set (d := Hermite3 _ _ _ _ _ _).
  assert (E : forall t, evaluate d t = sub3 (evaluate h t) (evaluate g t)).
  { intros t. unfold evaluate. rewrite A5, B5. unfold d. cbn [lower h0 h1 h2 h3]. cbv zeta. unfold add3, sub3, scal3. cbn [cx cy cz]. f_equal; ring. }
  assert (E' : forall t, evaluate_derivative d t = sub3 (evaluate_derivative h t) (evaluate_derivative g t)).
  { intros t. unfold evaluate_derivative. rewrite A5, B5. unfold d. cbn [lower h0 h1 h2 h3]. cbv zeta. unfold add3, sub3, scal3. cbn [cx cy cz]. f_equal; ring. }
  assert (Z : forall v, sub3 v v = zero3) by (intros v; unfold sub3, zero3; f_equal; ring).
  destruct (l2_norm d) as [Hm (t & _ & Ht)].
  - cbn. lra.
  - rewrite E. cbn [d lower]. rewrite A1, B1. apply Z.
  - rewrite E'. cbn [d lower]. rewrite A3, B3. apply Z.
  - split; [rewrite <- Ht; apply Norm_nonneg|]. intros t' Ht'. rewrite <- E. apply Hm. exact Ht'.
Qed.

Lemma faithful_add b n H l p (P : Prop) : (forall e, In e l -> etime e < ptime p) -> faithful b n H l -> faithful b n (fun q => H q \/ q = p /\ P) l.
Proof.
  induction l as [|e r IH]; intros Hl F; [trivial|]. destruct F as (F1 & F2 & F3). split; [|split].
  - intros q [Hq|[-> _]] E; [exact (F1 q Hq E)|]. pose proof (Hl e (or_introl eq_refl)). lra.
  - destruct r as [|f r]; [trivial|]. intros h error E q [Hq|[-> _]] Hr; [exact (F2 h error E q Hq Hr)|]. pose proof (Hl e (or_introl eq_refl)). lra.
  - apply IH; [intros f Hf; apply Hl; right; exact Hf|exact F3].
Qed.

Lemma append_point_inv b s H n p s' e r : timeline s = e :: r -> etime e < ptime p ->
  linked (timeline s) -> faithful b n H (timeline s) -> match tolerance s with Some tol => tol <= b | None => True end -> (forall p, H p -> in_range s p) ->
  AppendPoint p s = Some s' ->
  inv b s' (fun q => H q \/ q = p /\ (exists e r, timeline s' = Element p e :: r)) n.
Proof.
  intros Et Hlt L F T R E. unfold AppendPoint in E. rewrite Et in E. injection E as <-. cbn [timeline]. rewrite Et in L, F.
  assert (Hall : forall f, In f (e :: r) -> etime f < ptime p) by (intros f [<-|Hf]; [exact Hlt|]; pose proof (linked_all _ _ _ _ eq_refl L Hf); lra).
  assert (Hold : forall q, H q -> ptime q <= etime e) by (intros q Hq; pose proof (R q Hq) as Hr; unfold in_range in Hr; rewrite Et in Hr; lra).
  constructor; cbn [timeline tolerance downsampling_error].
  - split; [|exact L]. cbn [dof]. split; [exact Hlt|]. exists 0. split; [reflexivity|lra].
  - split; [|split; [|apply faithful_add; assumption]].
    + intros q [Hq|[-> _]] Eq; [|reflexivity]. cbn [dof] in Eq. pose proof (Hold q Hq). lra.
    + intros h error Ei q [Hq|[-> _]] Hr; cbn [dof] in Hr; [pose proof (Hold q Hq); lra|lra].
  - unfold last_close. cbn [timeline]. intros q [Hq|[-> _]] Hr; [pose proof (Hold q Hq); lra|lra].
  - lra.
  - exact T.
  - intros q Hq. unfold in_range. cbn [timeline]. change (last (Element p (Some (Interpolate (dof e) p, 0)) :: e :: r) (Element p (Some (Interpolate (dof e) p, 0)))) with (last (e :: r) (Element p (Some (Interpolate (dof e) p, 0)))).
    rewrite (last_default (e :: r) _ e) by discriminate. cbn [dof]. destruct Hq as [Hq|[-> _]].
    + pose proof (R q Hq) as Hr. unfold in_range in Hr. rewrite Et in Hr. lra.
    + pose proof (Hall _ (in_last (e :: r) e ltac:(discriminate))). lra.
Qed.

Lemma inv_ext b s H H' n : (forall p, H p <-> H' p) -> inv b s H n -> inv b s H' n.
Proof.
  intros X [L F C E T R]. constructor; try assumption.
  - apply (faithful_weaken b n H); [intros p Hp; apply X; exact Hp|exact F].
  - unfold last_close in *. destruct (timeline s) as [|[p [[h er]|]] [|f r]]; try exact I. intros q Hq. apply C. apply X. exact Hq.
  - intros p Hp. apply R. apply X. exact Hp.
Qed.

Lemma append_inv b s H n p s' : inv b s H n -> Append p s = Some s' ->
  inv b s' (fun q => H q \/ q = p /\ (exists e r, timeline s' = Element p e :: r)) n.
Proof.
  intros [L F C Er T R] E. unfold Append in E. destruct (timeline s) as [|e r] eqn:Et.
  { injection E as <-. constructor; cbn [timeline tolerance downsampling_error].
    - split; [reflexivity|exact I].
    - split; [|split; exact I]. intros q [Hq|[-> _]] _; [|reflexivity]. pose proof (R q Hq) as Hr. unfold in_range in Hr. rewrite Et in Hr. destruct Hr.
    - exact I.
    - exact Er.
    - exact T.
    - intros q [Hq|[-> _]]; [pose proof (R q Hq) as Hr; unfold in_range in Hr; rewrite Et in Hr; destruct Hr|]. unfold in_range. cbn. lra. }
  destruct (Req_EM_T (etime (last (e :: r) e)) (ptime p)) as [Eq|Ne].
  { injection E as <-. assert (Hin : inv b s H n) by (constructor; rewrite ?Et; try assumption).
    destruct (Req_EM_T (etime e) (ptime p)) as [E2|N2].
    - (* there is a single point *)
      assert (Hp : forall q, q = p /\ (exists e0 r0, timeline s = Element p e0 :: r0) -> q = dof e /\ r = []).
      { intros q (-> & e0 & r0 & E0). rewrite Et in E0. injection E0 as -> ->. split; [reflexivity|]. destruct (linked_last _ _ _ eq_refl L) as [->|Hl]; [reflexivity|]. lra. }
      destruct Hin as [L' F' C' Er' T' R']. constructor; try assumption.
      + rewrite Et in *. destruct F' as (F1 & F2 & F3). split; [|split].
        * intros q [Hq|Hq] Eq'; [exact (F1 q Hq Eq')|]. destruct (Hp q Hq) as [-> _]. reflexivity.
        * destruct r as [|f r]; [trivial|]. intros h er Ei q [Hq|Hq]; [exact (F2 h er Ei q Hq)|]. destruct (Hp q Hq) as [_ Hx]. discriminate.
        * destruct r as [|f r]; [exact I|]. apply (faithful_weaken b n H); [|exact F3]. intros q [Hq|Hq]; [exact Hq|]. destruct (Hp q Hq) as [_ Hx]. discriminate.
      + unfold last_close in *. rewrite Et in *. destruct e as [pe [[h er]|]]; [|trivial]. destruct r as [|f r]; [trivial|]. intros q [Hq|Hq]; [exact (C' q Hq)|]. destruct (Hp q Hq) as [_ Hx]. discriminate.
      + intros q [Hq|Hq]; [exact (R' q Hq)|]. destruct (Hp q Hq) as [-> ->]. unfold in_range. rewrite Et. cbn. lra.
    - apply (inv_ext b s H); [|exact Hin]. intros q. split; [tauto|]. intros [Hq|(-> & e0 & r0 & E0)]; [exact Hq|]. exfalso. rewrite Et in E0. injection E0 as -> ->. apply N2. reflexivity. }
  destruct (Rlt_dec (etime e) (ptime p)) as [Hlt|]; [|discriminate].
  assert (AP : forall s0, timeline s0 = e :: r -> tolerance s0 = tolerance s -> AppendPoint p s0 = Some s' -> inv b s' (fun q => H q \/ q = p /\ (exists e r, timeline s' = Element p e :: r)) n).
  { intros s0 E1 E2 E3. apply (append_point_inv b s0 H n p s' e r); try assumption; [rewrite E1; exact L|rewrite E1; exact F|rewrite E2; exact T|].
    intros q Hq. pose proof (R q Hq) as Hr. unfold in_range in *. rewrite Et in Hr. rewrite E1. exact Hr. }
  destruct r as [|f r]; [apply (AP s Et eq_refl E)|]. destruct (tolerance s) as [tol|] eqn:Etol; [|apply (AP s Et Etol E)].
  destruct L as [(Lt & error & Li & Le) L2]. rewrite Li in E.
  destruct (subtract_ok (dof f) p (dof e)) as (d & Ed & Hd & Hdb); [assumption..|]. rewrite Ed in E. cbv zeta in E.
  destruct (Rlt_dec (downsampling_error s + LInfinityL2Norm d) tol) as [Htol|_]; [|refine (AP _ _ _ E); reflexivity].
  injection E as <-. set (er := downsampling_error s + LInfinityL2Norm d) in *. cbn [timeline].
  assert (Hb : 0 <= INR n * b) by (apply Rmult_le_pos; [apply pos_INR|unfold er in Htol; lra]).
  destruct F as (F1 & F2 & F3).
  assert (Hall : forall g, In g (f :: r) -> etime g < ptime p) by (intros g [<-|Hg]; [lra|]; pose proof (linked_all _ _ _ _ eq_refl L2 Hg); lra).
  assert (Hold : forall q, H q -> ptime q <= etime e) by (intros q Hq; pose proof (R q Hq) as Hr; unfold in_range in Hr; rewrite Et in Hr; lra).
  assert (G : forall q, H q -> etime f < ptime q -> Norm (sub3 (evaluate (Interpolate (dof f) p) (ptime q)) (pposition q)) <= er + INR n * b).
  { intros q Hq Hf. pose proof (Hold q Hq) as Ho.
    replace (sub3 (evaluate (Interpolate (dof f) p) (ptime q)) (pposition q)) with
      (add3 (sub3 (evaluate (Interpolate (dof f) p) (ptime q)) (evaluate (Interpolate (dof f) (dof e)) (ptime q))) (sub3 (evaluate (Interpolate (dof f) (dof e)) (ptime q)) (pposition q)))
      by (unfold add3, sub3; cbn [cx cy cz]; f_equal; ring).
    eapply Rle_trans; [apply triangle|]. pose proof (Hdb (ptime q)) as H1. specialize (H1 ltac:(lra)).
    assert (H2 : Norm (sub3 (evaluate (Interpolate (dof f) (dof e)) (ptime q)) (pposition q)) <= downsampling_error s + INR n * b); [|unfold er; lra].
    destruct (Req_EM_T (ptime q) (etime e)) as [Eq|Nq].
    - rewrite Eq, (F1 q Hq Eq). unfold Interpolate. destruct (interpolates (etime f) (etime e) (pposition (dof f)) (pposition (dof e)) (pvelocity (dof f)) (pvelocity (dof e))) as (_ & A2 & _); [lra|].
      rewrite A2, Norm_sub_self. lra.
    - unfold last_close in C. rewrite Et in C. destruct e as [pe ie]. cbn [interpolation dof] in *. rewrite Li in C. apply C; [exact Hq|lra]. }
  constructor; cbn [timeline tolerance downsampling_error].
  - split; [|exact L2]. cbn [dof]. split; [lra|]. exists er. split; [reflexivity|unfold er; lra].
  - split; [|split; [|apply faithful_add; assumption]].
    + intros q [Hq|[-> _]] Eq; [|reflexivity]. cbn [dof] in Eq. pose proof (Hold q Hq). lra.
    + intros h er' Ei q [Hq|[-> _]] Hr; cbn [dof interpolation] in *; [|lra]. injection Ei as <- <-. split; [apply G; [exact Hq|lra]|lra].
  - unfold last_close. cbn [timeline]. intros q [Hq|[-> _]] Hr; [|lra]. cbn [downsampling_error]. apply G; [exact Hq|lra].
  - unfold er. lra.
  - exact T.
  - intros q Hq. unfold in_range. cbn [timeline]. match goal with |- context [last (?a :: f :: r) ?a] => change (last (a :: f :: r) a) with (last (f :: r) a); rewrite (last_default (f :: r) a e) by discriminate end.
    cbn [dof]. destruct Hq as [Hq|[-> _]].
    + pose proof (R q Hq) as Hr. unfold in_range in Hr. rewrite Et in Hr. change (last (e :: f :: r) e) with (last (f :: r) e) in Hr. lra.
    + pose proof (Hall _ (in_last (f :: r) e ltac:(discriminate))). lra.
Qed.

Lemma drop_after_suffix t l : exists l1, l = l1 ++ drop_after t l.
Proof.
  induction l as [|e l IH]; [exists []; reflexivity|]. cbn. destruct (Rlt_dec (etime e) t); [exists []; reflexivity|].
  destruct IH as (l1 & E). exists (e :: l1). cbn. congruence.
Qed.
Lemma linked_app l1 l2 : linked (l1 ++ l2) -> linked l2.
Proof. induction l1 as [|e l1 IH]; [trivial|]. cbn [app]. intros [_ L]. apply IH. exact L. Qed.
Lemma faithful_app b n H l1 l2 : faithful b n H (l1 ++ l2) -> faithful b n H l2.
Proof. induction l1 as [|e l1 IH]; [trivial|]. cbn [app]. intros (_ & _ & L). apply IH. exact L. Qed.

Lemma forget_after_inv b s H n t : inv b s H n -> inv b (ForgetAfter t s) (fun q => H q /\ in_range (ForgetAfter t s) q) n.
Proof.
  intros [L F C Er T R]. destruct (drop_after_suffix t (timeline s)) as (l1 & E). rewrite E in L, F. apply linked_app in L. apply faithful_app in F.
  apply (faithful_weaken b n H (fun q => H q /\ in_range (ForgetAfter t s) q)) in F; [|tauto].
  unfold ForgetAfter in *. set (l := drop_after t (timeline s)) in *.
  constructor; cbn [timeline tolerance downsampling_error].
  - exact L.
  - exact F.
  - unfold last_close. cbn [timeline downsampling_error]. destruct l as [|[p [[h er]|]] [|f r]]; try exact I.
    intros q Hq Hr. destruct F as (_ & F2 & _). apply (F2 h er eq_refl q Hq Hr).
  - destruct l as [|[p [[h er]|]] [|f r]]; try lra.
    + destruct L as [L _]. discriminate.
    + destruct L as [(_ & er' & Ei & Hp) _]. cbn in Ei. injection Ei as _ ->. exact Hp.
  - exact T.
  - tauto.
Qed.

Lemma drop_before_spec t l : linked l -> exists l1 l2, l = l1 ++ l2 /\ Forall (fun e => t <= etime e) l1 /\ (forall e, In e l2 -> etime e < t) /\
  drop_before t l = match rev l1 with [] => [] | e :: r => rev r ++ [Element (dof e) None] end.
Proof.
  induction l as [|e l IH]; intros L; [exists [], []; repeat split; auto; intros e []|]. cbn [drop_before].
  destruct (Rlt_dec (etime e) t) as [Hlt|Hge].
  - exists [], (e :: l). repeat split; auto. intros f [<-|Hf]; [exact Hlt|]. pose proof (linked_all _ _ _ _ eq_refl L Hf). lra.
  - destruct IH as (l1 & l2 & E & H1 & H2 & E2); [exact (proj2 L)|]. exists (e :: l1), l2. split; [cbn; congruence|]. split; [constructor; [lra|assumption]|]. split; [exact H2|].
    rewrite E2. cbn [rev]. destruct (rev l1) as [|g r] eqn:Er; [reflexivity|]. cbn [app]. rewrite rev_app_distr. cbn [rev app]. destruct (rev r); reflexivity.
Qed.

Lemma truncated_linked l x l2 : linked (l ++ x :: l2) -> linked (l ++ [Element (dof x) None]).
Proof.
  induction l as [|e l IH]; cbn [app].
  - intros _. split; [reflexivity|exact I].
  - intros [L1 L2]. split; [|apply IH; exact L2]. destruct l as [|f l]; cbn [app] in *; exact L1.
Qed.
Lemma truncated_faithful b n H l x l2 : faithful b n H (l ++ x :: l2) -> faithful b n H (l ++ [Element (dof x) None]).
Proof.
  induction l as [|e l IH]; cbn [app].
  - intros (F1 & _ & _). split; [exact F1|split; exact I].
  - intros (F1 & F2 & F3). split; [exact F1|]. split; [|apply IH; exact F3]. destruct l as [|f l]; cbn [app] in *; exact F2.
Qed.

Lemma forget_before_inv b s H n t : inv b s H n -> inv b (ForgetBefore t s) (fun q => H q /\ in_range (ForgetBefore t s) q) n.
Proof.
  intros [L F C Er T R]. destruct (drop_before_spec t (timeline s) L) as (l1 & l2 & E & H1 & H2 & E2).
  assert (W : forall q, H q /\ in_range (ForgetBefore t s) q -> H q) by tauto.
  destruct (rev l1) as [|x r] eqn:Erev.
  { constructor; cbn [ForgetBefore timeline tolerance downsampling_error]; rewrite ?E2; try exact I; try assumption; [unfold last_close; cbn [ForgetBefore timeline]; rewrite E2; exact I|tauto]. }
  assert (El1 : l1 = rev r ++ [x]) by (rewrite <- (rev_involutive l1), Erev; reflexivity).
  rewrite El1, <- app_assoc in E. cbn [app] in E. rewrite E in L, F.
  constructor; cbn [ForgetBefore timeline tolerance downsampling_error]; rewrite ?E2.
  - apply truncated_linked in L. exact L.
  - apply truncated_faithful in F. apply (faithful_weaken b n H); assumption.
  - unfold last_close in *. cbn [ForgetBefore timeline downsampling_error]. rewrite E2. rewrite E in C. destruct (rev r) as [|[p [[h er]|]] l]; cbn [app] in *; [exact I| |exact I].
    destruct l as [|f l]; cbn [app] in *; intros q Hq; apply C; apply W; exact Hq.
  - exact Er.
  - exact T.
  - tauto.
Qed.

(** ** Saving and reading *)
Lemma mark_snoc l x : mark (l ++ [x]) = mark l ++ [(negb (match l with [] => true | _ => false end), x)].
Proof. destruct l as [|y l]; [reflexivity|]. cbn. rewrite map_app. reflexivity. Qed.

Lemma read_written l : linked l ->
  fold_left read_point (mark (map (fun e => (dof e, match interpolation e with Some (_, error) => error | None => 0 end)) (rev l))) (Some new) = Some (Segment l None 0).
Proof.
  induction l as [|e r IH]; intros L; [reflexivity|]. cbn [rev]. rewrite map_app. cbn [map]. rewrite mark_snoc, fold_left_app, IH by exact (proj2 L).
  cbn [fold_left read_point]. unfold Append. cbn [timeline tolerance downsampling_error]. destruct r as [|f r].
  - cbn. destruct L as [L _]. destruct e as [p i]. cbn in *. rewrite L. reflexivity.
  - destruct L as [(Lt & error & Li & Le) L2].
    destruct (Req_EM_T (etime (last (f :: r) f)) (ptime (dof e))) as [Eq|_].
    { exfalso. destruct (linked_last _ _ _ eq_refl L2) as [->|Hl]; [cbn in Eq|]; lra. }
    destruct (Rlt_dec (etime f) (ptime (dof e))) as [_|N]; [|contradiction].
    replace (match map (fun e0 => (dof e0, match interpolation e0 with Some (_, error0) => error0 | None => 0 end)) (rev (f :: r)) with [] => true | _ => false end) with false.
    2:{ cbn [rev]. rewrite map_app. destruct (map _ (rev r)); reflexivity. }
    cbn [negb]. assert (Ea : match r with [] | _ => AppendPoint (dof e) (Segment (f :: r) None 0) end = AppendPoint (dof e) (Segment (f :: r) None 0)) by (destruct r; reflexivity).
    rewrite Ea. unfold AppendPoint. cbn [timeline tolerance]. rewrite Li. destruct e as [p i]. cbn in *. rewrite Li. reflexivity.
Qed.

Lemma reload_state s : linked (timeline s) -> ReadFromMessage (WriteToMessage s) = Some (Segment (timeline s) (tolerance s) 0).
Proof. intros L. unfold ReadFromMessage, WriteToMessage. cbn [fst snd]. rewrite read_written by exact L. reflexivity. Qed.

Lemma faithful_reload b n H l : faithful b n H l -> linked l -> faithful b (S n) H l.
Proof.
  induction l as [|e r IH]; intros F L; [trivial|]. destruct F as (F1 & F2 & F3). split; [exact F1|]. split; [|apply IH; [exact F3|exact (proj2 L)]].
  destruct r as [|f r]; [trivial|]. intros h error E p Hp Hr. destruct (F2 h error E p Hp Hr) as [B1 B2]. split; [|exact B2].
  destruct L as [(_ & er & Ei & He) _]. rewrite Ei in E. injection E as _ <-. rewrite S_INR. lra.
Qed.

Lemma reload_inv b s H n s' : inv b s H n -> ReadFromMessage (WriteToMessage s) = Some s' -> inv b s' H (S n).
Proof.
  intros [L F C Er T R] E. rewrite reload_state in E by exact L. injection E as <-. constructor; cbn [timeline tolerance downsampling_error].
  - exact L.
  - apply faithful_reload; assumption.
  - unfold last_close. cbn [timeline downsampling_error]. destruct (timeline s) as [|[p [[h er]|]] [|f r]]; try exact I.
    intros q Hq Hr. destruct F as (_ & F2 & _). destruct (F2 h er eq_refl q Hq Hr) as [B1 B2]. rewrite S_INR. lra.
  - lra.
  - exact T.
  - intros p Hp. exact (R p Hp).
Qed.

Lemma history_inv b s H n : history b s H n -> inv b s H n.
Proof.
  induction 1 as [|s H n _ IH|s H n tol s' _ IH Ht E|s H n _ IH|s H n p s' _ IH E|s H n t _ IH|s H n t _ IH|s H n s' _ IH E].
  - constructor; try exact I; [cbn; lra|intros p []].
  - constructor; try exact I; [cbn; lra|intros p []].
  - destruct IH as [L F C Er T R]. unfold SetDownsampling in E. destruct (Nat.leb (length (timeline s)) 1) eqn:El; [|discriminate]. injection E as <-.
    apply Nat.leb_le in El. constructor; cbn [timeline tolerance downsampling_error]; try assumption; [|lra].
    unfold last_close. cbn [timeline]. destruct (timeline s) as [|[p [[h er]|]] [|f r]]; try exact I. cbn in El. lia.
  - destruct IH as [L F C Er T R]. constructor; cbn [ClearDownsampling timeline tolerance downsampling_error]; try assumption. exact I.
  - exact (append_inv b s H n p s' IH E).
  - exact (forget_after_inv b s H n t IH).
  - exact (forget_before_inv b s H n t IH).
  - exact (reload_inv b s H n s' IH E).
Qed.

Lemma history_represented b s H n p : 0 <= b -> history b s H n -> H p -> represented (INR (S n) * b) s p.
Proof.
  intros Hb Hh Hp. destruct (history_inv b s H n Hh) as [L F C Er T R]. pose proof (R p Hp) as Hr. unfold in_range in Hr. unfold represented, EvaluatePosition.
  destruct (timeline s) as [|e r] eqn:Et; [destruct Hr|].
  destruct (evaluate_ok b n H (e :: r) e r p) as (f & Ef & Hf); try assumption; try reflexivity; [apply Rmult_le_pos; [apply pos_INR|exact Hb]|].
  destruct (Rle_dec (etime (last (e :: r) e)) (ptime p)) as [_|N]; [|lra]. destruct (Rle_dec (ptime p) (etime e)) as [_|N]; [|lra].
  rewrite Ef. destruct Hf as [(E1 & E2)|(N1 & h & er & Ei & Hn)].
  - destruct (Req_EM_T (etime f) (ptime p)) as [_|N]; [|contradiction]. exists (pposition (dof f)). split; [reflexivity|left; exact E2].
  - destruct (Req_EM_T (etime f) (ptime p)) as [|_]; [contradiction|]. rewrite Ei. eexists. split; [reflexivity|right; exact Hn].
Qed.
