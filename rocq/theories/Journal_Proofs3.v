(* The journal: the executions, and a codec for the examples. *)
From Coq Require Import ZArith List Bool Arith Lia.
From Verif Require Import Hex_Model Hex_Proofs Journal_Model Journal_Spec Journal_Proofs Journal_Proofs2.
Import ListNotations.
Local Open Scope nat_scope.

Lemma Inv_not_recording : forall ser ok, Inv ser ok not_recording [].
Proof.
  intros. split; [intros f []|]. split; [constructor|]. cbn. intros. left. reflexivity.
Qed.
Lemma Inv_recording : forall ser ok, Inv ser ok recording [].
Proof.
  intros. split; [intros f []|]. split; [constructor|]. cbn.
  split; [intros; left; reflexivity|reflexivity].
Qed.

Lemma disciplined_calls : forall ser parse junk l s, disciplined ser parse junk s l ->
  forall s', exec ser junk s l = Next s' -> all_calls (call_ok ser parse) l.
Proof.
  induction l as [|[t e] l IH]; intros s HD s' E; [intros u c []|].
  inversion HD as [|? ? ? ? AL NX]; subst. cbn [exec] in E.
  destruct (step ser junk s t e) as [s1| | |] eqn:ES; try discriminate E.
  intros u c [X|X].
  - injection X as -> ->. apply AL.
  - apply (IH s1 (NX s1 eq_refl) s' E u). exact X.
Qed.

Lemma safe : forall ser parse junk l, disciplined ser parse junk not_recording l ->
  exec ser junk not_recording l <> CheckFailed /\ exec ser junk not_recording l <> Undefined.
Proof.
  intros ser parse junk l. generalize (Inv_not_recording ser (call_ok ser parse)).
  generalize (@nil (nat * call)) as L. generalize not_recording as s.
  induction l as [|[t e] l IH]; intros s L HI HD; cbn [exec]; [split; discriminate|].
  inversion HD as [|? ? ? ? AL NX]; subst.
  assert (HQ : forall c, e = EBegin c -> call_ok ser parse c).
  { intros c ->. apply AL. }
  pose proof (step_inv ser parse junk _ (fun c H => H) s t e L HI AL HQ) as ST.
  destruct (step ser junk s t e) as [s1| | |] eqn:ES; try (split; discriminate); try contradiction.
  destruct ST as (L1 & HI1 & _). apply (IH s1 L1 HI1). apply NX. reflexivity.
Qed.

(* What the invariant says about the files. *)
Lemma Inv_files : forall ser ok s L, Inv ser ok s L ->
  (forall f, In f (closed s) -> exists calls, Forall ok calls /\ f = lines ser (paired calls)) /\
  (active s <> None -> exists pending,
     (forall c, pending = Some c -> ok c) /\
     Forall ok (map snd L) /\
     file s = lines ser (paired (map snd L) ++ first_of pending)).
Proof.
  intros ser ok s L (HC & HL & HA). split; [exact HC|]. unfold file.
  destruct (active s) as [[f [o|]]|]; intros N; [| |congruence].
  - destruct HA as [_ HH].
    destruct HH as [(c & OK & E & EF)|[(c & r & OK & E & EF)|[(c & OK & E & EF)|(c & OK & E & EF)]]].
    + exists None. split; [discriminate|]. split; [exact HL|]. cbn. rewrite app_nil_r. exact EF.
    + exists (Some c). split; [intros ? X; injection X as <-; exact OK|]. split; [exact HL|exact EF].
    + exists (Some c). split; [intros ? X; injection X as <-; exact OK|]. split; [exact HL|exact EF].
    + exists None. split; [discriminate|]. split; [exact HL|]. cbn. rewrite app_nil_r. exact EF.
  - destruct HA as [_ EF]. exists None. split; [discriminate|]. split; [exact HL|].
    cbn. rewrite app_nil_r. exact EF.
Qed.

Lemma files : forall ser parse junk (ok : call -> Prop) l s, (forall c, ok c -> call_ok ser parse c) ->
  disciplined ser parse junk not_recording l -> all_calls ok l ->
  exec ser junk not_recording l = Next s ->
  (forall f, In f (closed s) -> exists calls, Forall ok calls /\ f = lines ser (paired calls)) /\
  exists calls pending, Forall ok calls /\ (forall c, pending = Some c -> ok c) /\
    file s = lines ser (paired calls ++ first_of pending).
Proof.
  intros ser parse junk ok l s HO HD HQ E.
  pose proof (exec_inv ser parse junk ok HO l _ _ (Inv_not_recording ser ok) HD HQ) as H.
  rewrite E in H. destruct H as (L & HI). destruct (Inv_files ser ok s L HI) as [HC HF].
  split; [exact HC|]. destruct (active s) as [[f w]|] eqn:EA.
  - destruct (HF ltac:(discriminate)) as (p & HP & HL & EF). exists (map snd L), p. auto.
  - exists [], None. split; [constructor|]. split; [discriminate|]. unfold file. rewrite EA. reflexivity.
Qed.

Lemma current_small : forall ser ok s L u, Inv ser ok s L ->
  length (current s u) <= 1 /\ (stacks s u = [] -> current s u = []).
Proof.
  intros ser ok s L u (_ & _ & HA). unfold current. split; [|intros ->; reflexivity].
  destruct (active s) as [[f [o|]]|].
  - destruct HA as [HW HH]. destruct (Nat.eq_dec u o) as [->|N].
    + destruct HH as [(c & OK & E & EF)|[(c & r & OK & E & EF)|[(c & OK & E & EF)|(c & OK & E & EF)]]];
        rewrite E; cbn; lia.
    + destruct (HW u N) as [E|(c & OK & E)]; rewrite E; cbn; lia.
  - destruct HA as [HW _]. destruct (HW u) as [E|(c & OK & E)]; rewrite E; cbn; lia.
  - destruct (HA u) as [E|(c & r & E)]; rewrite E; cbn; lia.
Qed.

Lemma accounting : forall ser parse junk (ok : call -> Prop) l s, (forall c, ok c -> call_ok ser parse c) ->
  disciplined ser parse junk recording l -> all_calls ok l ->
  Forall (fun x => switches (snd x) = false) l ->
  exec ser junk recording l = Next s ->
  exists L pending, Forall ok (map snd L) /\ (forall c, pending = Some c -> ok c) /\
    file s = lines ser (paired (map snd L) ++ first_of pending) /\
    forall u, exists unfinished, begun u l = from u L ++ unfinished /\ length unfinished <= 1 /\
      (stacks s u = [] -> unfinished = []).
Proof.
  intros ser parse junk ok l s HO HD HQ HS E.
  destruct (exec_log ser parse junk ok HO l recording [] s (Inv_recording ser ok)
              ltac:(discriminate) HD HQ HS E) as (L & HI & HA & HB).
  destruct (Inv_files ser ok s L HI) as [_ HF]. destruct (HF HA) as (p & HP & HL & EF).
  exists L, p. split; [exact HL|]. split; [exact HP|]. split; [exact EF|].
  intros u. exists (current s u). split; [symmetry; apply HB|]. apply (current_small ser ok s L). exact HI.
Qed.

Lemma deadlock_free : forall ser parse junk l s t, disciplined ser parse junk not_recording l ->
  exec ser junk not_recording l = Next s -> stacks s t <> [] ->
  exists u e s', (e = EStep \/ e = EReturn \/ e = EEnd) /\
    allowed ser parse s u e /\ step ser junk s u e = Next s'.
Proof.
  intros ser parse junk l s t HD E N.
  pose proof (exec_inv ser parse junk _ (fun c H => H) l _ _
    (Inv_not_recording ser (call_ok ser parse)) HD (disciplined_calls _ _ _ _ _ HD _ E)) as H.
  rewrite E in H. destruct H as (L & HI).
  apply (progress ser parse junk _ (fun c H => H) s L t HI N).
Qed.

Lemma replay : forall ser parse junk profiles get_version compatible calls pending,
  NoDup profiles -> Forall (playable ser parse profiles get_version compatible) calls ->
  (forall c, pending = Some c -> playable ser parse profiles get_version compatible c) ->
  play_all parse junk profiles get_version compatible (S (length calls))
    (open (lines ser (paired calls ++ first_of pending)))
  = (map (fun c => (in_record c, out_record c, [whole c])) calls, PlayEnd).
Proof.
  intros ser parse junk profiles gv compat calls pending ND HC HP.
  replace (S (length calls)) with (length calls + 1) by lia. unfold open.
  rewrite lines_app, play_pairs by assumption. cbn [play_all].
  rewrite Play_end; [rewrite app_nil_r; reflexivity|].
  destruct pending as [c|]; [|exact I]. apply (HP c eq_refl).
Qed.

Lemma record_replay : forall ser parse junk junk' profiles get_version compatible l s f,
  NoDup profiles -> disciplined ser parse junk not_recording l ->
  all_calls (playable ser parse profiles get_version compatible) l ->
  exec ser junk not_recording l = Next s -> In f (file s :: closed s) ->
  exists calls pending, f = lines ser (paired calls ++ first_of pending) /\
    play_all parse junk' profiles get_version compatible (S (length calls)) (open f)
    = (map (fun c => (in_record c, out_record c, [whole c])) calls, PlayEnd).
Proof.
  intros ser parse junk junk' profiles gv compat l s f ND HD HQ E HF.
  destruct (files ser parse junk _ l s (fun c H => proj1 H) HD HQ E)
    as (HC & calls & p & H1 & H2 & EF).
  destruct HF as [<-|HF].
  - exists calls, p. split; [exact EF|]. rewrite EF. apply replay; assumption.
  - destruct (HC f HF) as (calls' & H3 & ->). exists calls', None.
    assert (X : lines ser (paired calls') = lines ser (paired calls' ++ first_of None))
      by (cbn [first_of]; rewrite app_nil_r; reflexivity).
    split; [exact X|]. rewrite X. apply replay; [assumption|assumption|discriminate].
Qed.

Lemma nested : forall ser parse junk t c d, call_ok ser parse c ->
  exists s, exec ser junk recording [(t, EBegin c); (t, EStep); (t, EStep); (t, EBegin d)] = Next s /\
    forall l s', Forall (fun x => switches (snd x) = false) l -> exec ser junk s l = Next s' ->
      file s' = lines ser [in_record c] /\ stacks s' t = stacks s t /\
      step ser junk s' t EStep = Blocked.
Proof.
  intros ser parse junk t c d OK.
  set (f := lines ser [in_record c]).
  set (st := [CtorLock 1 d; Running c (is_some (c_out c)) false false]).
  assert (H : exists s, exec ser junk recording
     [(t, EBegin c); (t, EStep); (t, EStep); (t, EBegin d)] = Next s /\
     stuck s t f (CtorLock (gen s) d :: [Running c (is_some (c_out c)) false false])).
  { unfold exec, step at 1. cbn [stacks recording active gen set_stack].
    unfold step at 1. cbn [stacks set_stack active gen recording]. rewrite push_same.
    cbn [Nat.eqb]. unfold step at 1. cbn [stacks set_active set_stack active gen recording].
    rewrite push_same. cbn [Nat.eqb].
    change (message_at_construction c) with (in_record c).
    rewrite (WriteLocked_spec ser parse) by apply OK.
    unfold step. cbn [stacks set_active set_stack active gen recording].
    rewrite push_same. eexists. split; [reflexivity|].
    split; [reflexivity|]. split.
    - cbn [stacks set_active set_stack active gen recording]. rewrite push_same. reflexivity.
    - intros u N. cbn [stacks set_active set_stack active gen recording].
      rewrite push_other by assumption. cbn [stacks set_active set_stack active gen recording].
      rewrite push_other by assumption. cbn [stacks set_active set_stack active gen recording].
      rewrite push_other by assumption. cbn [stacks set_active set_stack active gen recording].
      rewrite push_other by assumption. left. reflexivity. }
  destruct H as (s & E & HS). exists s. split; [exact E|]. intros l s' HF E'.
  destruct (stuck_exec ser junk l s t f d _ s' HS HF E') as (A & B & _).
  destruct HS as (A0 & B0 & _).
  assert (G : gen s' = gen s).
  { clear -HF E' . revert s E'. induction l as [|[u e] l IH]; intros s E'; cbn [exec] in E'.
    - injection E' as <-. reflexivity.
    - inversion HF as [|? ? H1 H2]; subst.
      destruct (step ser junk s u e) as [s1| | |] eqn:ES; try discriminate E'.
      rewrite (IH H2 s1 E'). clear -ES H1. unfold step in ES. destruct e; try discriminate H1;
        repeat match type of ES with
        | context [match ?x with _ => _ end] => destruct x
        end; try discriminate ES; injection ES as <-; reflexivity. }
  split; [unfold file; rewrite A; reflexivity|]. split; [rewrite B, B0, G; reflexivity|].
  unfold step. rewrite B, A, Nat.eqb_refl. reflexivity.
Qed.

(* ---------------------------------------------------------------- codec *)

(* A codec for the examples. *)
Definition put (o : option (list Z)) : list Z :=
  match o with None => [0%Z] | Some l => (1 + Z.of_nat (length l))%Z :: l end.
Definition get (l : list Z) : option (option (list Z) * list Z) :=
  match l with
  | [] => None
  | x :: l' =>
    if (x =? 0)%Z then Some (None, l')
    else let n := Z.to_nat (x - 1) in
      if n <=? length l' then Some (Some (firstn n l'), skipn n l') else None
  end.
Definition sample_serialize (m : message) : list Z :=
  Z.of_nat (ext m) :: put (m_in m) ++ put (m_out m) ++ put (m_return m).
Definition sample_parse (l : list Z) : option message :=
  match l with
  | [] => None
  | e :: l =>
    match get l with
    | None => None
    | Some (i, l) =>
      match get l with
      | None => None
      | Some (o, l) =>
        match get l with
        | Some (r, []) => Some (mkMessage (Z.to_nat e) i o r)
        | _ => None
        end
      end
    end
  end.
