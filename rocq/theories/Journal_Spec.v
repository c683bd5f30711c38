(* Vocabulary for the statements about the journal. *)
From Coq Require Import ZArith List Bool Arith.
From Verif Require Import Hex_Model Hex_Proofs Journal_Model.
Import ListNotations.
Local Open Scope nat_scope.

(* The records of a call. *)
Definition in_record (c : call) : message := mkMessage (c_ext c) (c_in c) None None.
Definition out_record (c : call) : message := mkMessage (c_ext c) None (c_out c) (c_return c).
Definition whole (c : call) : message := mkMessage (c_ext c) (c_in c) (c_out c) (c_return c).
Definition paired (calls : list call) : list message :=
  flat_map (fun c => [in_record c; out_record c]) calls.

(* A file with one line for each record. *)
Definition lines (serialize : message -> list Z) (l : list message) : list Z :=
  flat_map (fun m => hex_of_bytes (serialize m) ++ [10%Z]) l.

(* The serialization of a message is made of bytes, is not empty, and may be parsed. *)
Definition codec_ok (serialize : message -> list Z) (parse : list Z -> option message)
    (m : message) :=
  serialize m <> [] /\ Forall is_byte (serialize m) /\ parse (serialize m) = Some m.
Definition call_ok serialize parse (c : call) :=
  codec_ok serialize parse (in_record c) /\ codec_ok serialize parse (out_record c).

(* The state before any call, with an active recorder. *)
Definition recording : state := mkState 1 (Some ([], None)) [] (fun _ => []).
Definition not_recording : state := mkState 0 None [] (fun _ => []).

Definition file (s : state) : list Z :=
  match active s with Some (f, _) => f | None => [] end.

(* The events that a client may cause in a state: the calls are not nested, Return is called
   exactly once, and the recorder is not activated or deactivated during a call. *)
Definition allowed serialize parse (s : state) (t : nat) (e : event) : Prop :=
  match e with
  | EBegin c => stacks s t = [] /\ call_ok serialize parse c
  | EStep => True
  | EReturn => forall c o r l, stacks s t <> Running c o r true :: l
  | EEnd => forall c o r l, stacks s t <> Running c o r false :: l
  | EActivate | EDeactivate => forall u, stacks s u = []
  end.
Inductive disciplined serialize parse junk : state -> list (nat * event) -> Prop :=
| disciplined_nil : forall s, disciplined serialize parse junk s []
| disciplined_cons : forall s t e l, allowed serialize parse s t e ->
    (forall s', step serialize junk s t e = Next s' ->
       disciplined serialize parse junk s' l) ->
    disciplined serialize parse junk s ((t, e) :: l).

Definition switches (e : event) : bool :=
  match e with EActivate | EDeactivate => true | _ => false end.

(* The calls that a thread began. *)
Definition begun (t : nat) (l : list (nat * event)) : list call :=
  flat_map (fun '(u, e) => if u =? t then match e with EBegin c => [c] | _ => [] end else []) l.
(* Those of a list that are from a thread. *)
Definition from (t : nat) (l : list (nat * call)) : list call :=
  map snd (filter (fun x => fst x =? t) l).

(* A call that the player may run. *)
Definition playable serialize parse profiles get_version (compatible : message -> bool)
    (c : call) : Prop :=
  call_ok serialize parse c /\ In (c_ext c) profiles /\
  (c_ext c = get_version -> compatible (out_record c) = true).

(* The calls of an execution have a property. *)
Definition all_calls (P : call -> Prop) (l : list (nat * event)) : Prop :=
  forall t c, In (t, EBegin c) l -> P c.

(* The first record of a call whose second record is not written. *)
Definition first_of (pending : option call) : list message :=
  match pending with Some c => [in_record c] | None => [] end.
