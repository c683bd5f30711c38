(* C50: the journal. *)
From Coq Require Import ZArith List Bool Arith Lia.
From Verif Require Import Hex_Model Hex_Proofs Journal_Model Journal_Spec Journal_Proofs.
From Verif Require Import Journal_Proofs2 Journal_Proofs3.
Import ListNotations.
Local Open Scope nat_scope.

Definition no_junk : Hex_Model.mem := fun _ => 0%Z.
Definition sample_a : call := mkCall 3 (Some [17; 255]%Z) None (Some [9]%Z).
Definition sample_b : call := mkCall 5 None (Some [1; 2; 3]%Z) None.
Definition sample_c : call := mkCall 3 (Some [0]%Z) None (Some []).

(* Two threads; the second one waits for the first one. *)
Definition sample_execution : list (nat * event) :=
  [(0, EActivate);
   (0, EBegin sample_a); (1, EBegin sample_b); (0, EStep); (0, EStep); (0, EReturn); (0, EEnd);
   (0, EStep); (0, EStep); (1, EStep); (0, EBegin sample_c); (1, EStep); (1, EReturn);
   (1, EEnd); (1, EStep); (1, EStep); (0, EStep); (0, EStep)].

Ltac check_codec := split; [discriminate|split; [repeat constructor; discriminate|reflexivity]].
Lemma sample_ok : forall c, In c [sample_a; sample_b; sample_c] -> call_ok sample_serialize sample_parse c.
Proof. intros c [<-|[<-|[<-|[]]]]; split; check_codec. Qed.

Ltac discipline :=
  repeat first
    [ apply disciplined_nil
    | apply disciplined_cons;
      [ cbn [allowed]; first [ exact I
                             | split; [reflexivity|apply sample_ok; cbn; tauto]
                             | intros; discriminate | intros; reflexivity ]
      | let s := fresh "s" in let H := fresh "H" in intros s H; vm_compute in H;
        injection H as <- ] ].
Lemma sample_disciplined :
  disciplined sample_serialize sample_parse no_junk not_recording sample_execution.
Proof. unfold sample_execution. discipline. Qed.

(* No disciplined execution fails a check or has an undefined behaviour. *)
Theorem C50_safe : forall serialize parse junk l,
  disciplined serialize parse junk not_recording l ->
  exec serialize junk not_recording l <> CheckFailed /\
  exec serialize junk not_recording l <> Undefined.
Proof. exact safe. Qed.

Definition final : state :=
  match exec sample_serialize no_junk not_recording sample_execution with
  | Next s => s | _ => not_recording end.
Lemma final_spec : exec sample_serialize no_junk not_recording sample_execution = Next final.
Proof. vm_compute. reflexivity. Qed.
Example C50_safe_example :
  disciplined sample_serialize sample_parse no_junk not_recording sample_execution /\
  stacks final 0 = [Running sample_c false false false] /\ stacks final 1 = [].
Proof. split; [exact sample_disciplined|]. split; reflexivity. Qed.

(* Every file is made of pairs of consecutive records, one for the inputs and one for
   the outputs of a call, possibly followed, in that of the active recorder, by the
   inputs of one call. *)
Theorem C50_pairs : forall serialize parse junk l s,
  disciplined serialize parse junk not_recording l ->
  exec serialize junk not_recording l = Next s ->
  (forall f, In f (closed s) -> exists calls, f = lines serialize (paired calls)) /\
  exists calls pending, file s = lines serialize (paired calls ++ first_of pending).
Proof.
  intros serialize parse junk l s HD E.
  destruct (files serialize parse junk _ l s (fun c H => H) HD
              (disciplined_calls _ _ _ _ _ HD _ E) E) as (HC & calls & p & _ & _ & EF).
  split; [|exists calls, p; exact EF].
  intros f Hf. destruct (HC f Hf) as (calls' & _ & ->). exists calls'. reflexivity.
Qed.

Example C50_pairs_example :
  file final = lines sample_serialize
    [in_record sample_a; out_record sample_a; in_record sample_b; out_record sample_b;
     in_record sample_c] /\
  firstn 15 (file final) = [48; 51; 48; 51; 49; 49; 70; 70; 48; 48; 48; 48; 10; 48; 51]%Z.
Proof. split; vm_compute; reflexivity. Qed.

(* While a recorder is active, the calls of each thread are recorded in the order in
   which they began; only the last one may not be there, and only if it has not ended. *)
Theorem C50_accounting : forall serialize parse junk l s,
  disciplined serialize parse junk recording l ->
  Forall (fun x => switches (snd x) = false) l ->
  exec serialize junk recording l = Next s ->
  exists L pending,
    file s = lines serialize (paired (map snd L) ++ first_of pending) /\
    forall t, exists unfinished,
      begun t l = from t L ++ unfinished /\ length unfinished <= 1 /\
      (stacks s t = [] -> unfinished = []).
Proof.
  intros serialize parse junk l s HD HS E.
  destruct (accounting serialize parse junk _ l s (fun c H => H) HD
              (disciplined_calls _ _ _ _ _ HD _ E) HS E) as (L & p & _ & _ & EF & HU).
  exists L, p. split; [exact EF|exact HU].
Qed.

Example C50_accounting_example :
  exists s, exec sample_serialize no_junk recording (tl sample_execution) = Next s /\
    file s = lines sample_serialize
      (paired (map snd [(0, sample_a); (1, sample_b)]) ++ first_of (Some sample_c)) /\
    begun 0 (tl sample_execution) = from 0 [(0, sample_a); (1, sample_b)] ++ [sample_c] /\
    begun 1 (tl sample_execution) = from 1 [(0, sample_a); (1, sample_b)] ++ [].
Proof. eexists. split; [vm_compute; reflexivity|]. repeat split; reflexivity. Qed.

(* Whenever a thread is in a call, some thread may progress. *)
Theorem C50_progress : forall serialize parse junk l s t,
  disciplined serialize parse junk not_recording l ->
  exec serialize junk not_recording l = Next s -> stacks s t <> [] ->
  exists u e s', (e = EStep \/ e = EReturn \/ e = EEnd) /\
    allowed serialize parse s u e /\ step serialize junk s u e = Next s'.
Proof. exact deadlock_free. Qed.

Example C50_progress_example :
  stacks final 0 <> [] /\ exists s', step sample_serialize no_junk final 0 EReturn = Next s'.
Proof. split; [discriminate|]. eexists. vm_compute. reflexivity. Qed.

(* GetLine reads a line of any length, and the end of a file without a new line. *)
Theorem C50_get_line : forall h r, Forall (fun x => x <> 10%Z /\ x <> 0%Z) h ->
  GetLine (mkStream (h ++ 10%Z :: r) false false) = Some (h, mkStream r false false) /\
  GetLine (mkStream h false false)
  = Some (h, mkStream [] true (match h with [] => true | _ => false end)).
Proof.
  intros h r H. split.
  - apply (GetLine_spec h (10%Z :: r) H). right. exists r. reflexivity.
  - rewrite <- (app_nil_r h) at 1. rewrite (GetLine_spec h [] H) by (left; reflexivity).
    destruct h; reflexivity.
Qed.

Example C50_get_line_example :
  GetLine (mkStream (repeat 65%Z 1000 ++ [10; 66]%Z) false false)
  = Some (repeat 65%Z 1000, mkStream [66%Z] false false) /\
  getline 200 (mkStream (repeat 65%Z 200 ++ [10; 66]%Z) false false)
  = (repeat 65%Z 199, mkStream [65; 10; 66]%Z false true).
Proof. split; vm_compute; reflexivity. Qed.

(* The player reads the records in order, runs each call once with the inputs and the
   outputs, and stops at the end even if the last call is incomplete. *)
Theorem C50_replay : forall serialize parse junk profiles get_version compatible calls pending,
  NoDup profiles -> Forall (playable serialize parse profiles get_version compatible) calls ->
  (forall c, pending = Some c -> playable serialize parse profiles get_version compatible c) ->
  play_all parse junk profiles get_version compatible (S (length calls))
    (open (lines serialize (paired calls ++ first_of pending)))
  = (map (fun c => (in_record c, out_record c, [whole c])) calls, PlayEnd).
Proof. exact replay. Qed.

Example C50_replay_example :
  play_all sample_parse no_junk [5; 3; 4] 4 (fun _ => false) 3 (open (file final))
  = ([(mkMessage 3 (Some [17; 255]%Z) None None, mkMessage 3 None None (Some [9]%Z),
       [mkMessage 3 (Some [17; 255]%Z) None (Some [9]%Z)]);
      (mkMessage 5 None None None, mkMessage 5 None (Some [1; 2; 3]%Z) None,
       [mkMessage 5 None (Some [1; 2; 3]%Z) None])], PlayEnd).
Proof. vm_compute. reflexivity. Qed.

(* The messages are played in pairs that are for the same function, one of the profiles. *)
Theorem C50_played_pairs : forall parse junk profiles get_version compatible st m_in m_out ran st',
  Play parse junk profiles get_version compatible st = PlayMessages m_in m_out ran st' ->
  ext m_in = ext m_out /\ In (ext m_in) profiles /\ In (MergeFrom m_in m_out) ran.
Proof. exact played_pairs. Qed.

(* In the first case the second message is not for the same function. *)
Example C50_played_pairs_example :
  run_profiles [5; 3; 4] (mkMessage 3 (Some [17]%Z) None None) (mkMessage 5 None None (Some [9]%Z)) = None /\
  run_profiles [5; 3; 4] (mkMessage 3 (Some [17]%Z) None None) (mkMessage 3 None None (Some [9]%Z)) =
  Some [mkMessage 3 (Some [17]%Z) None (Some [9]%Z)].
Proof. split; reflexivity. Qed.

(* The two together, for each of the files of an execution. *)
Theorem C50_record_replay : forall serialize parse junk junk' profiles get_version compatible l s f,
  NoDup profiles -> disciplined serialize parse junk not_recording l ->
  all_calls (playable serialize parse profiles get_version compatible) l ->
  exec serialize junk not_recording l = Next s -> In f (file s :: closed s) ->
  exists calls pending, f = lines serialize (paired calls ++ first_of pending) /\
    play_all parse junk' profiles get_version compatible (S (length calls)) (open f)
    = (map (fun c => (in_record c, out_record c, [whole c])) calls, PlayEnd).
Proof. exact record_replay. Qed.

Example C50_record_replay_example :
  all_calls (playable sample_serialize sample_parse [5; 3; 4] 4 (fun _ => false)) sample_execution /\
  In (file final) (file final :: closed final) /\ length (file final) = 59.
Proof.
  split; [|split; [left; reflexivity|vm_compute; reflexivity]].
  intros t c H. cbn in H.
  repeat (destruct H as [H|H]; [try discriminate H; injection H as <- <-;
    (split; [apply sample_ok; cbn; tauto|split; [cbn; tauto|discriminate]])|]).
  destruct H.
Qed.

(* A call made during the execution of another one on the same thread (as is done by
   principia__SerializePlugin if PRINCIPIA_VERIFY_SERIALIZATION is set) waits for ever for
   the lock; nothing else is ever recorded, on any thread. *)
Theorem C50_nested_refuted : forall serialize parse junk t c d, call_ok serialize parse c ->
  exists s,
    exec serialize junk recording [(t, EBegin c); (t, EStep); (t, EStep); (t, EBegin d)] = Next s /\
    forall l s', Forall (fun x => switches (snd x) = false) l -> exec serialize junk s l = Next s' ->
      file s' = lines serialize [in_record c] /\ stacks s' t = stacks s t /\
      step serialize junk s' t EStep = Blocked.
Proof. exact nested. Qed.

Example C50_nested_example :
  call_ok sample_serialize sample_parse sample_a /\
  exists s, exec sample_serialize no_junk recording
      [(0, EBegin sample_a); (0, EStep); (0, EStep); (0, EBegin sample_b); (1, EBegin sample_c)]
    = Next s /\
    stacks s 0 = [CtorLock 1 sample_b; Running sample_a false false false] /\
    stacks s 1 = [CtorLock 1 sample_c].
Proof.
  split; [apply sample_ok; left; reflexivity|].
  eexists. split; [vm_compute; reflexivity|]. split; reflexivity.
Qed.

(* If a recorder is activated during a call of another thread, the outputs of that call
   are recorded without its inputs, and the lock is released without being held. *)
Theorem C50_activation_refuted :
  let l := [(0, EBegin sample_a); (1, EActivate); (0, EReturn); (0, EEnd); (0, EStep)] in
  (exists s, exec sample_serialize no_junk not_recording l = Next s /\
     file s = lines sample_serialize [mkMessage 3 None None (Some [9]%Z)] /\
     forall calls pending, Forall (call_ok sample_serialize sample_parse) calls ->
       (forall c, pending = Some c -> call_ok sample_serialize sample_parse c) ->
       file s <> lines sample_serialize (paired calls ++ first_of pending)) /\
  exec sample_serialize no_junk not_recording (l ++ [(0, EStep)]) = Undefined.
Proof.
  cbv zeta. split; [|vm_compute; reflexivity]. eexists. split; [vm_compute; reflexivity|].
  split; [vm_compute; reflexivity|]. intros calls pending HC HP H.
  assert (N : forall m r, m_return m = None -> Forall is_byte (sample_serialize m) ->
            lines sample_serialize (m :: r)
            <> [48; 51; 48; 48; 48; 48; 48; 50; 48; 57; 10]%Z).
  { intros m r Hm HB E. unfold lines in E. cbn [flat_map] in E.
    assert (L : forall a b x, Forall (fun y => y <> 10%Z) a -> a ++ 10%Z :: b = x ++ [10%Z] ->
              Forall (fun y => y <> 10%Z) x -> a = x).
    { induction a as [|y a IH]; intros b x Ha X Hx; destruct x as [|z x]; cbn in X.
      - reflexivity.
      - inversion Hx; congruence.
      - inversion Ha; subst. injection X as X1 X2. congruence.
      - injection X as -> X. f_equal. inversion Ha; inversion Hx; subst. apply (IH b x); assumption. }
    rewrite <- app_assoc in E. cbn [app] in E.
    change [48; 51; 48; 48; 48; 48; 48; 50; 48; 57; 10]%Z
      with ([48; 51; 48; 48; 48; 48; 48; 50; 48; 57] ++ [10])%Z in E.
    apply (L (hex_of_bytes (sample_serialize m))) in E.
    - unfold sample_serialize in E. rewrite Hm in E. unfold hex_of_bytes in E.
      rewrite app_comm_cons, !flat_map_app in E. cbn [put] in E.
      apply (f_equal (@rev Z)) in E. rewrite !rev_app_distr in E. cbn in E.
      injection E. intros. congruence.
    - apply hex_plain in HB. revert HB. apply Forall_impl. intros a [Ha _]. exact Ha.
    - repeat constructor; discriminate. }
  vm_compute in H.
  destruct calls as [|c calls].
  - destruct pending as [c|]; [|discriminate H].
    apply (N (in_record c) [] eq_refl); [apply (HP c eq_refl)|]. symmetry. exact H.
  - apply (N (in_record c) (out_record c :: paired calls ++ first_of pending) eq_refl);
      [inversion HC as [|? ? OK ?]; apply OK|]. symmetry. exact H.
Qed.

(* The recorder may be deactivated while another thread is about to use it. *)
Theorem C50_deactivation_refuted : forall serialize parse junk c, call_ok serialize parse c ->
  exec serialize junk recording [(0, EBegin c); (1, EDeactivate); (0, EStep)] = Undefined /\
  exec serialize junk recording [(0, EBegin c); (0, EStep); (0, EStep); (1, EDeactivate)] = Undefined.
Proof.
  intros serialize parse junk c OK. split; [reflexivity|].
  cbn -[WriteLocked]. change (message_at_construction c) with (in_record c).
  rewrite (WriteLocked_spec serialize parse) by apply OK. reflexivity.
Qed.

(* The player doesn't stop normally on a file that was truncated in the middle of a
   byte. *)
Theorem C50_truncated_refuted :
  forall serialize parse junk profiles get_version compatible calls c k,
  NoDup profiles -> Forall (playable serialize parse profiles get_version compatible) calls ->
  call_ok serialize parse c -> Nat.odd k = true ->
  k <= length (hex_of_bytes (serialize (in_record c))) ->
  play_all parse junk profiles get_version compatible (S (length calls))
    (open (lines serialize (paired calls) ++ firstn k (hex_of_bytes (serialize (in_record c)))))
  = (map (fun c => (in_record c, out_record c, [whole c])) calls, PlayFatal).
Proof.
  intros serialize parse junk profiles gv compat calls c k ND HC OK O L.
  replace (S (length calls)) with (length calls + 1) by lia. unfold open.
  rewrite play_pairs by assumption. cbn [play_all].
  rewrite Play_odd; [rewrite app_nil_r; reflexivity|apply OK|exact O|exact L].
Qed.

(* Nor, for the codec of the examples, on one that was truncated between bytes. *)
Example C50_truncated_example :
  play_all sample_parse no_junk [5; 3; 4] 4 (fun _ => false) 3 (open (firstn 57 (file final)))
  = (map (fun c => (in_record c, out_record c, [whole c])) [sample_a; sample_b], PlayFatal) /\
  play_all sample_parse no_junk [5; 3; 4] 4 (fun _ => false) 3 (open (firstn 56 (file final)))
  = (map (fun c => (in_record c, out_record c, [whole c])) [sample_a; sample_b], PlayFatal).
Proof. split; vm_compute; reflexivity. Qed.

Print Assumptions C50_safe.
Print Assumptions C50_pairs.
Print Assumptions C50_accounting.
Print Assumptions C50_progress.
Print Assumptions C50_get_line.
Print Assumptions C50_replay.
Print Assumptions C50_played_pairs.
Print Assumptions C50_record_replay.
Print Assumptions C50_nested_refuted.
Print Assumptions C50_activation_refuted.
Print Assumptions C50_deactivation_refuted.
Print Assumptions C50_truncated_refuted.

(* A call that never returns, or that returns more than once, fails a check, and so does an empty message; nothing is recorded. *)
Theorem C50_checks : forall serialize junk s t c o r rest,
  (stacks s t = Running c o r true :: rest -> step serialize junk s t EReturn = CheckFailed) /\
  (stacks s t = Running c o r false :: rest -> step serialize junk s t EEnd = CheckFailed) /\
  (forall file owner, active s = Some (file, owner) -> stacks s t = CtorWrite (gen s) c :: rest ->
     serialize (in_record c) = [] -> step serialize junk s t EStep = CheckFailed).
Proof.
  intros serialize junk s t c o r rest. split; [|split].
  - intros E. unfold step. rewrite E. reflexivity.
  - intros E. unfold step. rewrite E. reflexivity.
  - intros file owner A E Z. unfold step. rewrite E, A, Nat.eqb_refl. unfold WriteLocked.
    change (message_at_construction c) with (in_record c). rewrite Z. reflexivity.
Qed.
Print Assumptions C50_checks.

Example C50_checks_example :
  exec sample_serialize no_junk not_recording [(0, EBegin sample_a); (0, EReturn); (0, EReturn)] = CheckFailed /\
  exec (fun _ => []) no_junk recording [(0, EBegin sample_a); (0, EStep); (0, EStep)] = CheckFailed.
Proof. split; vm_compute; reflexivity. Qed.

(* If the recorder is replaced while a call waits for its lock, the lock that is used is that of the deleted recorder; if a
   recorder is activated during a call, the outputs of that call are lost and its record has nothing. *)
Theorem C50_replacement_refuted :
  exec sample_serialize no_junk not_recording
    [(0, EActivate); (0, EBegin sample_a); (1, EDeactivate); (1, EActivate); (0, EStep)] = Undefined /\
  exists s, exec sample_serialize no_junk not_recording
      [(0, EBegin sample_b); (1, EActivate); (0, EReturn); (0, EEnd); (0, EStep)] = Next s /\
    file s = lines sample_serialize [mkMessage 5 None None None].
Proof. split; [vm_compute; reflexivity|]. eexists. split; vm_compute; reflexivity. Qed.
Print Assumptions C50_replacement_refuted.
