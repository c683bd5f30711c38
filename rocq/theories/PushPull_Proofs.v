(* The interleavings of the two threads are all the same. *)
From Coq Require Import List Bool Lia.
From Verif Require Import PushPull_Model PushPull_Spec.
Import ListNotations.

Section Proofs.
Context {A R T : Type} (answer : list (A * R) -> A -> R).
Notation state := (state A R T).
Notation task := (task A R T).

(* [to_do n s]: [s] is a state in which the execution of [total] may be, when [n] calls are not finished. *)
Fixpoint calls_left (m : task) (h : list (A * R)) : nat :=
  match m with Return _ => 0 | Call a k => S (calls_left (k (answer h a)) (h ++ [(a, answer h a)])) end.
Lemma direct_calls m : forall h, length (snd (direct answer m h)) = length h + calls_left m h.
Proof.
  induction m as [t|a k IH]; intros h; cbn [direct calls_left snd]; [lia|]. rewrite IH, app_length. cbn. lia.
Qed.

Inductive inv (total : T * list (A * R)) : nat -> state -> Prop :=
| inv_running m h : direct answer m h = total -> inv total (4 * calls_left m h + 5) (mkState (mkExecutor (mkCallback None None false) None (Running m)) AtPull h)
| inv_pushed a k h : direct answer (Call a k) h = total ->
    inv total (4 * calls_left (Call a k) h + 4) (mkState (mkExecutor (mkCallback (Some a) None false) None (Pulling k)) AtPull h)
| inv_pulled a k h : direct answer (Call a k) h = total ->
    inv total (4 * calls_left (Call a k) h + 3) (mkState (mkExecutor (mkCallback None None false) None (Pulling k)) (AtPush a) h)
| inv_result r k h : direct answer (k r) h = total ->
    inv total (4 * calls_left (k r) h + 6) (mkState (mkExecutor (mkCallback None (Some r) false) None (Pulling k)) AtPull h)
| inv_stored t h : (t, h) = total -> inv total 4 (mkState (mkExecutor (mkCallback None None false) (Some t) ShuttingDown) AtPull h)
| inv_exited t h : (t, h) = total -> inv total 3 (mkState (mkExecutor (mkCallback None None true) (Some t) Exited) AtPull h)
| inv_get t h : (t, h) = total -> inv total 2 (mkState (mkExecutor (mkCallback None None true) (Some t) Exited) AtGet h)
| inv_join t h : (t, h) = total -> inv total 1 (mkState (mkExecutor (mkCallback None None true) (Some t) Exited) (AtJoin t) h)
| inv_finished t h : (t, h) = total -> inv total 0 (mkState (mkExecutor (mkCallback None None true) (Some t) Exited) (Finished t) h).

Lemma inv_initial m : inv (direct answer m []) (4 * calls_left m [] + 5) (initial m).
Proof. now constructor. Qed.
Lemma inv_eq total n n' s : inv total n s -> n = n' -> inv total n' s.
Proof. now intros H <-. Qed.
Lemma inv_step total n s s' : inv total n s -> step answer s s' -> exists n', n = S n' /\ inv total n' s'.
Proof.
  intros I S. inversion S as [s0 e E|s0 s1 E]; subst; clear S; inversion I; subst; cbn in E;
    try discriminate E;
    try (match type of E with context [match ?m with Return _ => _ | Call _ _ => _ end] => destruct m end);
    try discriminate E; injection E as <-; cbn [managed history calls_left].
  all: eexists; split; [|eapply inv_eq; [econstructor; cbn [direct] in *; eassumption || reflexivity|cbn [calls_left]; reflexivity]]; cbn [calls_left]; lia.
Qed.
Lemma inv_progress total n s : inv total (S n) s -> exists s', step answer s s'.
Proof.
  intros I. inversion I; subst; try (eexists; apply thread_steps; reflexivity); try (eexists; apply managed_steps; reflexivity).
  destruct m as [t|a k]; eexists; apply thread_steps; reflexivity.
Qed.
Lemma inv_steps m n s : steps answer n (initial m) s ->
  exists k, n + k = 4 * calls_left m [] + 5 /\ inv (direct answer m []) k s.
Proof.
  intros H. remember (initial m) as i eqn:Ei. induction H as [s|n s s' s'' H IH S].
  - subst. eexists. split; [|apply inv_initial]. reflexivity.
  - destruct (IH Ei) as (k & E & I). destruct (inv_step _ _ _ _ I S) as (k' & -> & I'). exists k'. split; [lia|exact I'].
Qed.
Lemma length_calls m : length (snd (direct answer m [])) = calls_left m [].
Proof. rewrite direct_calls. reflexivity. Qed.
End Proofs.

Section Results.
Context {A R T : Type} (answer : list (A * R) -> A -> R).
Notation task := (task A R T).

Lemma terminates (m : task) n s : steps answer n (initial m) s ->
  let total := 4 * length (snd (direct answer m [])) + 5 in
  n <= total /\ (n < total -> exists s', step answer s s') /\
  (n = total -> managed s = Finished (fst (direct answer m [])) /\ history s = snd (direct answer m []) /\ thread_ (executor_ s) = Exited).
Proof.
  cbv zeta. intros H. rewrite length_calls. destruct (inv_steps _ _ _ _ H) as (k & E & I). split; [lia|]. split.
  - intros L. destruct k as [|k]; [lia|]. now apply (inv_progress _ (direct answer m []) k).
  - intros ->. assert (k = 0) by lia. subst. inversion I; subst; try lia.
    match goal with H : (_, _) = _ |- _ => rewrite <- H end. repeat split.
Qed.
Lemma finished (m : task) n s t : steps answer n (initial m) s -> managed s = Finished t ->
  (t, history s) = direct answer m [].
Proof.
  intros H F. destruct (inv_steps _ _ _ _ H) as (k & _ & I). inversion I; subst; cbn in F; try discriminate F. injection F as <-. assumption.
Qed.
Lemma no_failure (m : task) n s : steps answer n (initial m) s -> managed s <> CheckFailed.
Proof. intros H. destruct (inv_steps _ _ _ _ H) as (k & _ & I). inversion I; subst; discriminate. Qed.
Lemma front_step n (s s' s'' : state A R T) : step answer s s' -> steps answer n s' s'' -> steps answer (S n) s s''.
Proof.
  intros S H. induction H as [s'|n s' s1 s2 H IH S']; [eapply more_steps; [apply no_step|exact S]|]. eapply more_steps; [now apply IH|exact S'].
Qed.
Lemma direct_extends (m : task) : forall h, exists l, snd (direct answer m h) = h ++ l.
Proof.
  induction m as [t|a k IH]; intros h; cbn [direct snd]; [exists []; now rewrite app_nil_r|].
  destruct (IH (answer h a) (h ++ [(a, answer h a)])) as (l & ->). rewrite <- app_assoc. eexists. reflexivity.
Qed.
Lemma prefix (m : task) n s : steps answer n (initial m) s -> exists l, snd (direct answer m []) = history s ++ l.
Proof.
  intros H. destruct (inv_steps _ _ _ _ H) as (k & _ & I). inversion I; subst; cbn [history];
  match goal with H : _ = direct answer m [] |- _ => rewrite <- H end; try apply direct_extends; exists []; now rewrite app_nil_r.
Qed.
Lemma shutdown_final (c : callback A R) : shutdown_ c = true ->
  PullArguments c = Returns _ None c /\ (forall a, shutdown_ (PushArguments a c) = true) /\ (forall r, shutdown_ (PushResult r c) = true) /\
  (forall r c', PullResult c = Returns _ r c' -> shutdown_ c' = true) /\ shutdown_ (Shutdown c) = true.
Proof.
  intros S. unfold PullArguments, has_arguments_or_shutting_down, PullResult. rewrite S. cbn. repeat split; auto.
  intros r c'. destruct (result_ c); [|discriminate]. intros H. now injection H as _ <-.
Qed.
End Results.
