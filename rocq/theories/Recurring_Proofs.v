(* Proofs about the recurring thread. *)
From Coq Require Import List Bool Arith Lia.
From Verif Require Import Recurring_Model Recurring_Spec.
Import ListNotations.

Section Lists.
Context {X : Type}.
Implicit Types l m : list X.
Lemma sub_empty l : subsequence [] l.
Proof. induction l; now constructor. Qed.
Lemma sub_refl l : subsequence l l.
Proof. induction l; now constructor. Qed.
Lemma sub_app l l' m m' : subsequence l l' -> subsequence m m' -> subsequence (l ++ m) (l' ++ m').
Proof. intros H H'. induction H; cbn; [exact H'|now constructor|now constructor]. Qed.
Lemma sub_trans l l' l'' : subsequence l l' -> subsequence l' l'' -> subsequence l l''.
Proof.
  intros H H'. revert l H. induction H' as [|x m m' H' IH|x m m' H' IH]; intros l H; [exact H|constructor; now apply IH|].
  inversion H; subst; constructor; now apply IH.
Qed.
Lemma sub_snoc l l' x : subsequence l l' -> subsequence (l ++ [x]) (l' ++ [x]).
Proof. intros H. apply sub_app; [exact H|apply sub_refl]. Qed.
Lemma sub_longer l l' m : subsequence l l' -> subsequence l (l' ++ m).
Proof. intros H. rewrite <- (app_nil_r l). apply sub_app; [exact H|apply sub_empty]. Qed.
Lemma sub_front l l' m : subsequence (l ++ m) l' -> subsequence l l'.
Proof. apply sub_trans. apply sub_longer, sub_refl. Qed.
End Lists.
Lemma outputs_snoc {I O} (action : list I -> I -> option O) l i : forall before,
  outputs action before (l ++ [i]) = outputs action before l ++ match action (before ++ l) i with Some o => [o] | None => [] end.
Proof.
  induction l as [|j l IH]; intros before; cbn [app outputs]; [now rewrite !app_nil_r|]. rewrite IH, <- !app_assoc. reflexivity.
Qed.

Section Proofs.
Context {I O : Type} (action : list I -> I -> option O) (period : nat).
Notation state := (state I O).
Notation exec := (exec action period).
Notation step := (step action period).

Lemma exec_invariant (P : state -> Prop) (ok : event I -> bool) :
  (forall s e s', P s -> ok e = true -> step s e = Next s' -> P s') ->
  forall l s s', P s -> forallb ok l = true -> exec s l = Next s' -> P s'.
Proof.
  intros H. induction l as [|e l IH]; intros s s' Ps F E; cbn in E; [now injection E as <-|].
  cbn in F. apply andb_prop in F. destruct F as (F1 & F2).
  destruct (step s e) as [| |s1] eqn:S; try discriminate E. apply (IH s1); auto. now apply (H s e).
Qed.
Lemma all_true {X} (l : list X) : forallb (fun _ => true) l = true.
Proof. induction l; auto. Qed.

Definition opt {X} (o : option X) : list X := match o with Some x => [x] | None => [] end.
Definition held (s : state) : list I :=
  match jthread_ s with Some t => match at_ t with AtSecondCheck i | AtAction i => [i] | _ => [] end | None => [] end.
Definition flying (s : state) : list O :=
  match jthread_ s with Some t => match at_ t with AtThirdCheck o | AtStore o => opt o | _ => [] end | None => [] end.

Ltac projections := cbn [input_ output_ jthread_ holder alive now puts ran got born action_times at_ stop_requested wakeup_time opt app negb] in *.
Ltac cases E :=
  repeat match type of E with
  | context [match ?x with _ => _ end] => is_var x; destruct x
  | context [match ?x with _ => _ end] => let H := fresh "H" in destruct x eqn:H
  end; try discriminate E.
Ltac open s := destruct s as [inp outp [[stp [| | |j|j|o|o| | |] wak]|] hol ali tim pts rns gts brn ats].
(* All the steps from a state. *)
Ltac step_cases s e E := open s;
  unfold Recurring_Model.step, thread_step, stop_and_join, return_if_stopped, start_thread, go, set_thread in E; projections;
  destruct e; projections; cases E; projections; injection E as <-; projections; subst.

(* The inputs. *)
Definition inputs_ok (s : state) : Prop := subsequence (ran s ++ held s ++ opt (input_ s)) (puts s).
Ltac sub_tac := repeat first [apply sub_refl | apply sub_empty | apply sub_drop | apply sub_keep].
Lemma inputs_step s e s' : inputs_ok s -> step s e = Next s' -> inputs_ok s'.
Proof.
  unfold inputs_ok, held. intros P E. step_cases s e E; try exact P;
    try (rewrite <- ?app_assoc; exact P);
    try (eapply sub_trans; [|exact P]; apply sub_app; [apply sub_refl|]; solve [sub_tac]);
    try (apply sub_snoc; eapply sub_front; exact P);
    try (match goal with |- subsequence (?r ++ ?a :: [?b]) _ => change (a :: [b]) with ([a] ++ [b]) end; rewrite app_assoc; apply sub_snoc;
         apply (sub_front _ _ (opt inp)); rewrite <- app_assoc; exact P).
Qed.

(* The outputs. *)
Definition outputs_ok (s : state) : Prop := subsequence (got s ++ opt (output_ s) ++ flying s) (outputs action [] (ran s)).
Lemma outputs_step s e s' : outputs_ok s -> step s e = Next s' -> outputs_ok s'.
Proof.
  unfold outputs_ok, flying. intros P E. step_cases s e E; rewrite ?outputs_snoc; cbn [app]; try exact P;
    try (rewrite <- ?app_assoc; exact P);
    try (eapply sub_trans; [|exact P]; apply sub_app; [apply sub_refl|]; solve [sub_tac]).
  all: try (rewrite ?app_nil_r in *; rewrite ?app_assoc in *; cbn [app] in *; exact P).
  - rewrite app_assoc. apply sub_app; [|apply sub_refl]. rewrite app_nil_r in P. exact P.
  - rewrite app_nil_r. rewrite app_assoc in P. apply (sub_front _ _ _ P).
  - eapply sub_trans; [|exact P]; apply sub_app; [apply sub_refl|]. destruct outp; sub_tac.
Qed.

Lemma reached (P : state -> Prop) : P NewRecurringThread -> (forall s e s', P s -> step s e = Next s' -> P s') ->
  forall l s, exec NewRecurringThread l = Next s -> P s.
Proof. intros H0 H l s E. apply (exec_invariant P (fun _ => true)) with (l := l) (s := NewRecurringThread); auto using all_true. intros. eapply H; eauto. Qed.
Lemma inputs_in_order l s : exec NewRecurringThread l = Next s -> subsequence (ran s) (puts s).
Proof.
  intros E. apply (sub_front _ _ (held s ++ opt (input_ s))). revert l s E. apply (reached inputs_ok); [constructor|apply inputs_step].
Qed.
Lemma outputs_in_order l s : exec NewRecurringThread l = Next s -> subsequence (got s) (outputs action [] (ran s)).
Proof.
  intros E. apply (sub_front _ _ (opt (output_ s) ++ flying s)). revert l s E. apply (reached outputs_ok); [constructor|apply outputs_step].
Qed.
Lemma all_puts l : forall s s', exec s l = Next s' -> puts s' = puts s ++ flat_map (fun e => match e with Put i => [i] | _ => [] end) l.
Proof.
  induction l as [|e l IH]; intros s s' E; cbn in E; [injection E as <-; cbn; now rewrite app_nil_r|].
  destruct (step s e) as [| |s1] eqn:S; try discriminate E. rewrite (IH _ _ E). clear IH E. revert S. intros S.
  cbn [flat_map]. rewrite app_assoc. f_equal. step_cases s e S; now rewrite ?app_nil_r.
Qed.

(* The thread that is being joined has been stopped, and a thread only exits if it is. *)
Definition stopped_ok (s : state) : Prop :=
  match jthread_ s with
  | None => holder s = None
  | Some t => stop_requested t = (match holder s with Some _ => true | None => false end) /\ (at_ t = Exited -> stop_requested t = true)
  end.
Lemma stopped_step s e s' : stopped_ok s -> step s e = Next s' -> stopped_ok s'.
Proof.
  unfold stopped_ok. intros P E. step_cases s e E; try reflexivity; try exact P; try (destruct P as (P & Q)); (split; [try exact P; try reflexivity|]);
    intros; first [reflexivity|discriminate|congruence|auto].
Qed.
Lemma stopped_reached l s : exec NewRecurringThread l = Next s -> stopped_ok s.
Proof. revert l s. apply reached; [reflexivity|apply stopped_step]. Qed.

(* The end of a thread that is stopped. *)
Definition is_join (e : event I) : bool := match e with Join => true | _ => false end.
Definition stop_rank (s : state) : nat :=
  match jthread_ s with
  | Some t => match at_ t with AtFirstCheck | AtFourthCheck => 1 | AtLoop | AtSecondCheck _ | AtThirdCheck _ | AtStore _ => 2 | AtTake | AtAction _ | Sleeping => 3 | Exited => 0 end
  | None => 0
  end.
Definition last_action (s : state) : list I := match jthread_ s with Some t => match at_ t with AtAction i => [i] | _ => [] end | None => [] end.
Definition stopping (s : state) : Prop := holder s <> None /\ exists t, jthread_ s = Some t /\ stop_requested t = true.
Definition finishes (s s' : state) : Prop :=
  (ran s' = ran s /\ last_action s' = last_action s) \/ (ran s' = ran s ++ last_action s /\ last_action s' = []).
Lemma stopping_step s e s' : stopping s -> is_join e = false -> step s e = Next s' ->
  stopping s' /\ (if is_step e then S (stop_rank s') <= stop_rank s else stop_rank s' = stop_rank s) /\ finishes s s'.
Proof.
  unfold stopping, stop_rank, finishes, last_action. intros (H & t & T & R) J E. step_cases s e E; try discriminate T; try discriminate J; try contradiction;
  injection T as <-; cbn in R; subst; projections; try discriminate; 
  (split; [split; [first [exact H|discriminate]|eexists; split; reflexivity]|]); cbn [is_step]; (split; [lia|]); rewrite ?app_nil_r; first [left; split; reflexivity|right; split; reflexivity].
Qed.
Lemma stopping_exec l : forall s s', stopping s -> forallb (fun e => negb (is_join e)) l = true -> exec s l = Next s' ->
  stopping s' /\ count is_step l + stop_rank s' <= stop_rank s /\ finishes s s'.
Proof.
  induction l as [|e l IH]; intros s s' P F E; cbn in E; [injection E as <-; split; [exact P|split; [cbn; lia|left; split; reflexivity]]|].
  cbn in F. apply andb_prop in F. destruct F as (F1 & F2). apply negb_true_iff in F1.
  destruct (step s e) as [| |s1] eqn:S; try discriminate E. destruct (stopping_step _ _ _ P F1 S) as (P1 & R1 & A1).
  destruct (IH _ _ P1 F2 E) as (P2 & R2 & A2). split; [exact P2|]. split; [|unfold finishes in *; destruct A1 as [(A1 & B1)|(A1 & B1)], A2 as [(A2 & B2)|(A2 & B2)]; rewrite ?A2, ?A1, ?B2, ?B1, ?app_nil_r; auto]. unfold count in *. cbn [filter].
  destruct (is_step e); cbn [length]; lia.
Qed.
Lemma stop_rank_bound s : stop_rank s <= 3.
Proof. unfold stop_rank. destruct (jthread_ s) as [t|]; [|lia]. destruct (at_ t); lia. Qed.

(* A thread always makes another step, unless it has exited. *)
Lemma exec_app l l' : forall s, exec s (l ++ l') = match exec s l with Next s' => exec s' l' | r => r end.
Proof. induction l as [|e l IH]; intros s; cbn; [reflexivity|]. destruct (step s e); auto. Qed.
Lemma ticks n : forall s, exec s (repeat Tick n) =
  Next (mkState (input_ s) (output_ s) (jthread_ s) (holder s) (alive s) (n + now s) (puts s) (ran s) (got s) (born s) (action_times s)).
Proof.
  induction n as [|n IH]; intros s; cbn [repeat Recurring_Model.exec]; [now destruct s|]. cbn [Recurring_Model.step]. rewrite IH. projections. do 2 f_equal. lia.
Qed.
Lemma no_hang s t : alive s = true -> jthread_ s = Some t -> at_ t <> Exited -> exists n s', exec s (repeat Tick n ++ [Step]) = Next s'.
Proof.
  intros A T X. exists (wakeup_time t). rewrite exec_app, ticks. open s; projections; try discriminate T; injection T as <-; subst; projections;
  cbn [Recurring_Model.exec Recurring_Model.step]; projections; unfold thread_step, return_if_stopped, go, set_thread; projections; try (eexists; reflexivity); try contradiction.
  - destruct inp; eexists; reflexivity.
  - destruct o; eexists; reflexivity.
  - replace (wak <=? wak + tim) with true by (symmetry; apply Nat.leb_le; lia). eexists. reflexivity.
Qed.

(* Nothing is run without an input. *)
Definition idle (s : state) : Prop := input_ s = None /\ held s = [].
Lemma idle_step s e s' : idle s -> is_put e = false -> step s e = Next s' -> idle s' /\ ran s' = ran s.
Proof.
  unfold idle, held. intros (H & H') J E. step_cases s e E; try discriminate J; try discriminate H; try discriminate H'; try (split; [split; reflexivity|reflexivity]).
  
Qed.
Lemma idle_exec l : forall s s', idle s -> forallb (fun e => negb (is_put e)) l = true -> exec s l = Next s' -> idle s' /\ ran s' = ran s.
Proof.
  induction l as [|e l IH]; intros s s' P F E; cbn in E; [injection E as <-; auto|].
  cbn in F. apply andb_prop in F. destruct F as (F1 & F2). apply negb_true_iff in F1.
  destruct (step s e) as [| |s1] eqn:S; try discriminate E. destruct (idle_step _ _ _ P F1 S) as (P1 & A1).
  destruct (IH _ _ P1 F2 E) as (P2 & A2). split; [exact P2|congruence].
Qed.
(* Nothing is run without a thread. *)
Lemma none_step s e s' : jthread_ s = None -> starts e = false -> step s e = Next s' -> jthread_ s' = None /\ ran s' = ran s.
Proof. intros H J E. step_cases s e E; try discriminate J; try discriminate H; auto. Qed.
Lemma none_exec l : forall s s', jthread_ s = None -> forallb (fun e => negb (starts e)) l = true -> exec s l = Next s' -> jthread_ s' = None /\ ran s' = ran s.
Proof.
  induction l as [|e l IH]; intros s s' P F E; cbn in E; [injection E as <-; auto|].
  cbn in F. apply andb_prop in F. destruct F as (F1 & F2). apply negb_true_iff in F1.
  destruct (step s e) as [| |s1] eqn:S; try discriminate E. destruct (none_step _ _ _ P F1 S) as (P1 & A1).
  destruct (IH _ _ P1 F2 E) as (P2 & A2). split; [exact P2|congruence].
Qed.

(* A pending input is run after some steps. *)
Definition quiet (e : event I) : bool := negb (controls e) && negb (is_put e).
Definition distance (p : place I O) : nat :=
  match p with
  | AtLoop => 5 | AtFirstCheck => 4 | AtTake => 3 | AtSecondCheck _ => 11 | AtAction _ => 10 | AtThirdCheck _ => 9 | AtStore _ => 8
  | AtFourthCheck => 7 | Sleeping => 6 | Exited => 0
  end.
Definition pending (s : state) (i : I) (n : nat) : Prop :=
  holder s = None /\
  match jthread_ s with
  | None => False
  | Some t => stop_requested t = false /\ at_ t <> Exited /\
    ((input_ s = Some i /\ n = distance (at_ t)) \/ (input_ s = None /\ ((at_ t = AtSecondCheck i /\ n = 2) \/ (at_ t = AtAction i /\ n = 1))))
  end.
Definition done (s : state) (i : I) : Prop := idle s /\ exists m, ran s = m ++ [i].
Lemma pending_step s e s' i n : pending s i n -> quiet e = true -> step s e = Next s' ->
  (exists n', pending s' i n' /\ n = (if is_step e then S n' else n')) \/ done s' i.
Proof.
  unfold pending. intros (P & Q) J E. step_cases s e E; try discriminate J; try discriminate P; try contradiction; destruct Q as (Q1 & Q2 & Q3); try discriminate Q1; try congruence;
    destruct Q3 as [(Q3 & ->)|(Q3 & [(Q4 & ->)|(Q4 & ->)])]; try discriminate Q3; try discriminate Q4; try (injection Q3 as <-); try (injection Q4 as <-); subst;
    cbn [is_step distance];
    try (left; eexists; split; [split; [reflexivity|split; [reflexivity|split; [discriminate|left; split; reflexivity]]]|reflexivity]);
    try (left; eexists; split; [split; [reflexivity|split; [reflexivity|split; [discriminate|right; split; [reflexivity|left; split; reflexivity]]]]|reflexivity]);
    try (left; eexists; split; [split; [reflexivity|split; [reflexivity|split; [discriminate|right; split; [reflexivity|right; split; reflexivity]]]]|reflexivity]).
  all: right; split; [split; reflexivity|eexists; reflexivity].
Qed.
Lemma done_exec l : forall s s' i, done s i -> forallb quiet l = true -> exec s l = Next s' -> done s' i.
Proof.
  intros s s' i (P & m & M) F E. assert (F' : forallb (fun e => negb (is_put e)) l = true).
  { rewrite forallb_forall in *. intros e I'. apply F in I'. unfold quiet in I'. now apply andb_prop in I'. }
  destruct (idle_exec l s s' P F' E) as (P' & R). split; [exact P'|]. exists m. congruence.
Qed.
Lemma pending_exec l : forall s s' i n, pending s i n -> forallb quiet l = true -> exec s l = Next s' -> n <= count is_step l -> done s' i.
Proof.
  induction l as [|e l IH]; intros s s' i n P F E C.
  - exfalso. cbn in C. destruct P as (_ & P). destruct (jthread_ s) as [t|]; [|exact P]. destruct P as (_ & X & [(_ & N)|(_ & [(_ & N)|(_ & N)])]); [|lia|lia].
    destruct (at_ t); cbn in N; try lia. contradiction.
  - cbn in E, F. apply andb_prop in F. destruct F as (F1 & F2). destruct (step s e) as [| |s1] eqn:S; try discriminate E.
    destruct (pending_step _ _ _ _ _ P F1 S) as [(n' & P' & N)|D]; [|now apply (done_exec l s1)].
    apply (IH s1 s' i n' P' F2 E). unfold count in *. cbn [filter] in C. destruct (is_step e); cbn [length] in C; lia.
Qed.
Lemma pending_run l0 s t i l s' : exec NewRecurringThread l0 = Next s -> jthread_ s = Some t -> stop_requested t = false -> input_ s = Some i ->
  forallb (fun e => negb (controls e) && negb (is_put e)) l = true -> 11 <= count is_step l -> exec s l = Next s' ->
  exists m, ran s' = m ++ [i].
Proof.
  intros E T S H F C E'. pose proof (stopped_reached _ _ E) as K. unfold stopped_ok in K. rewrite T in K. destruct K as (K1 & K2).
  assert (P : pending s i (distance (at_ t))).
  { split; [rewrite S in K1; destruct (holder s); [discriminate K1|reflexivity]|]. rewrite T. split; [exact S|]. split; [intros X; apply K2 in X; congruence|]. left. auto. }
  destruct (pending_exec l s s' i _ P F E') as (_ & D); [|exact D]. destruct (at_ t); cbn; lia.
Qed.

(* The period. *)
Fixpoint spaced (b : nat) (l : list nat) : Prop := match l with [] => True | t :: l' => b + length l' * period <= t /\ spaced b l' end.
Definition period_ok (s : state) : Prop :=
  spaced (born s) (action_times s) /\
  match jthread_ s with
  | None => True
  | Some t =>
    let n := length (action_times s) in
    match at_ t with
    | AtLoop => born s + n * period <= now s
    | AtFirstCheck | AtTake | AtSecondCheck _ | AtAction _ => born s + n * period <= now s /\ born s + S n * period <= wakeup_time t
    | AtThirdCheck _ | AtStore _ | AtFourthCheck | Sleeping => born s + n * period <= wakeup_time t
    | Exited => True
    end
  end.
Lemma period_step s e s' : period_ok s -> step s e = Next s' -> period_ok s'.
Proof.
  unfold period_ok. intros (P & Q) E. step_cases s e E; cbn [length spaced Nat.mul Nat.add] in *;
    repeat match goal with H : (_ <=? _) = true |- _ => apply Nat.leb_le in H end;
    (split; [first [exact P|exact Logic.I|split; [lia|exact P]]|]); first [exact Q|exact Logic.I|cbn [NewThread at_]; lia].
Qed.
Lemma spaced_nth b l : spaced b l -> forall k t, nth_error (rev l) k = Some t -> b + k * period <= t.
Proof.
  induction l as [|x l IH]; intros S k t H; [destruct k; discriminate H|]. destruct S as (S1 & S2). cbn [rev] in H.
  destruct (Nat.lt_ge_cases k (length (rev l))) as [L|L].
  - rewrite nth_error_app1 in H by exact L. now apply (IH S2).
  - rewrite nth_error_app2 in H by exact L. rewrite rev_length in *. destruct (k - length l) as [|d] eqn:D; [|destruct d; discriminate H].
    injection H as <-. replace k with (length l) by lia. exact S1.
Qed.
Lemma period_kept l s : exec NewRecurringThread l = Next s -> forall k t, nth_error (rev (action_times s)) k = Some t -> born s + k * period <= t.
Proof.
  intros E. apply spaced_nth. assert (P : period_ok s) by (revert l s E; apply reached; [split; exact Logic.I|apply period_step]). apply P.
Qed.

(* The destruction. *)
Lemma alive_defined s e : alive s = true -> step s e <> Undefined.
Proof.
  intros A E. open s; projections; subst; unfold Recurring_Model.step, thread_step, stop_and_join, return_if_stopped, start_thread, go, set_thread in E; projections;
  destruct e; projections; cases E.
Qed.
Definition is_destroy (e : event I) : bool := match e with Destroy => true | _ => false end.
Lemma alive_step s e s' : alive s = true -> is_destroy e = false -> step s e = Next s' -> alive s' = true.
Proof. intros A D E. step_cases s e E; try discriminate D; first [exact A|reflexivity|congruence]. Qed.
Lemma alive_exec l : forall s, alive s = true -> forallb (fun e => negb (is_destroy e)) l = true -> exec s l <> Undefined.
Proof.
  induction l as [|e l IH]; intros s A F; cbn in *; [discriminate|]. apply andb_prop in F. destruct F as (F1 & F2). apply negb_true_iff in F1.
  destruct (step s e) as [| |s1] eqn:S; [discriminate|now apply alive_defined in S|]. apply IH; [now apply (alive_step s e)|exact F2].
Qed.
Lemma dead_exec l : forall s, alive s = false -> jthread_ s = None -> exec s l <> Undefined.
Proof.
  induction l as [|e l IH]; intros s A N; [cbn; discriminate|]. cbn [Recurring_Model.exec]. destruct (step s e) as [| |s1] eqn:S; [discriminate| |].
  - exfalso. open s; projections; try discriminate N; subst. destruct e; cbn in S; try discriminate S. destruct hol; discriminate S.
  - apply IH; step_cases s e S; try discriminate N; try discriminate A; try discriminate; reflexivity.
Qed.
Lemma destroyed_stopped s l : alive s = true -> holder s = None -> jthread_ s = None -> exec s (Destroy :: l) <> Undefined.
Proof.
  intros A H N. cbn [Recurring_Model.exec Recurring_Model.step]. rewrite A. cbn [negb]. rewrite H. unfold stop_and_join. cbn [jthread_]. rewrite N.
  apply dead_exec; [reflexivity|reflexivity].
Qed.
Lemma starts_idempotent s : alive s = true -> holder s = None ->
  (jthread_ s <> None -> step s Start = Next s) /\ (jthread_ s = None -> step s Stop = Next s).
Proof. intros A H. open s; projections; subst; split; intros K; try discriminate K; try contradiction; try (now destruct K); reflexivity. Qed.
End Proofs.
