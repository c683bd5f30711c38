(* Proofs about the player. *)
From Coq Require Import ZArith List Bool Arith Lia.
From Verif Require Import Hex_Model Hex_Proofs Journal_Model Journal_Spec Journal_Proofs.
Import ListNotations.
Local Open Scope nat_scope.

(* A character that may be in a line. *)
Definition plain (x : Z) : Prop := x <> 10%Z /\ x <> 0%Z.

Lemma c_string_plain : forall l, Forall plain l -> c_string l = l.
Proof.
  induction l as [|x l IH]; intros H; [reflexivity|]. inversion H as [|? ? [_ P] H']; subst.
  cbn [c_string]. destruct (Z.eqb_spec x 0); [contradiction|]. rewrite IH by assumption. reflexivity.
Qed.

(* What getline leaves after a line followed by [tail]. *)
Definition after (extracted : bool) (h tail : list Z) : stream :=
  match tail with
  | [] => mkStream [] true (negb (extracted || match h with [] => false | _ => true end))
  | _ :: r => mkStream r false false
  end.
Definition ends_line (tail : list Z) : Prop := tail = [] \/ exists r, tail = 10%Z :: r.

Lemma scan_short : forall h n x tail, Forall plain h -> ends_line tail ->
  (Z.of_nat (length h) <= n)%Z -> scan n x (h ++ tail) = (h, after x h tail).
Proof.
  induction h as [|a h IH]; intros n x tail H HT L.
  - destruct HT as [->|(r & ->)]; cbn; [|reflexivity]. rewrite orb_false_r. reflexivity.
  - inversion H as [|? ? [P _] H']; subst. cbn [app scan length] in *.
    destruct (Z.eqb_spec a 10); [contradiction|]. destruct (Z.leb_spec n 0); [lia|].
    rewrite IH by (assumption || lia). unfold after. destruct tail; [|reflexivity].
    rewrite orb_true_r. reflexivity.
Qed.

Lemma scan_long : forall k h n x tail, Forall plain h -> n = Z.of_nat k -> k < length h ->
  scan n x (h ++ tail) = (firstn k h, mkStream (skipn k h ++ tail) false true).
Proof.
  induction k as [|k IH]; intros h n x tail H -> L; destruct h as [|a h]; cbn [length] in L; try lia;
    inversion H as [|? ? [P _] H']; subst; cbn [app scan firstn skipn];
    (destruct (Z.eqb_spec a 10); [contradiction|]).
  - destruct (Z.leb_spec (Z.of_nat 0) 0); [reflexivity|lia].
  - destruct (Z.leb_spec (Z.of_nat (S k)) 0); [lia|].
    rewrite (IH h) by (assumption || lia). reflexivity.
Qed.

Lemma GetLineWithSize_spec : forall fuel h size tail, Forall plain h -> ends_line tail ->
  length h < fuel -> (2 <= size)%Z ->
  GetLineWithSize fuel size (mkStream (h ++ tail) false false) = Some (h, after false h tail).
Proof.
  induction fuel as [|fuel IH]; intros h size tail H HT L S; [lia|].
  cbn [GetLineWithSize]. unfold getline. cbn [eofbit failbit orb rest].
  destruct (Z_le_gt_dec (Z.of_nat (length h)) (size - 1)).
  - rewrite scan_short by assumption.
    assert (F : negb (eofbit (after false h tail)) && failbit (after false h tail) = false)
      by (destruct tail; reflexivity).
    rewrite F, c_string_plain by assumption. reflexivity.
  - rewrite (scan_long (Z.to_nat (size - 1)) h) by (assumption || lia).
    cbn [eofbit failbit negb andb rest].
    assert (A : Forall plain (firstn (Z.to_nat (size - 1)) h) /\
                Forall plain (skipn (Z.to_nat (size - 1)) h)).
    { rewrite <- Forall_app, firstn_skipn. exact H. }
    rewrite IH; [|apply A|exact HT|rewrite skipn_length; lia|lia].
    rewrite c_string_plain by apply A. rewrite firstn_skipn. f_equal. f_equal.
    assert (N : skipn (Z.to_nat (size - 1)) h <> []).
    { intros E. apply (f_equal (@length Z)) in E. rewrite skipn_length in E. cbn in E. lia. }
    unfold after. destruct tail; [|reflexivity].
    destruct (skipn _ h); [contradiction|]. destruct h; [cbn in *; lia|reflexivity].
Qed.

Lemma GetLine_spec : forall h tail, Forall plain h -> ends_line tail ->
  GetLine (mkStream (h ++ tail) false false) = Some (h, after false h tail).
Proof.
  intros h tail H HT. unfold GetLine. cbn [rest]. apply GetLineWithSize_spec; try assumption; [|lia].
  rewrite app_length. lia.
Qed.

Lemma hex_plain : forall l, Forall is_byte l -> Forall plain (hex_of_bytes l).
Proof.
  intros l H. apply (Forall_impl _ (P := fun c => (48 <= c <= 57 \/ 65 <= c <= 70)%Z)).
  - intros a Ha. unfold plain. lia.
  - apply hex_alphabet. exact H.
Qed.
Lemma hex_ascii : forall l, Forall is_byte l -> Forall (fun c => (0 <= c < 128)%Z) (hex_of_bytes l).
Proof.
  intros l H. apply (Forall_impl _ (P := fun c => (48 <= c <= 57 \/ 65 <= c <= 70)%Z)).
  - intros a Ha. lia.
  - apply hex_alphabet. exact H.
Qed.
Lemma Forall_firstn : forall A (P : A -> Prop) k l, Forall P l -> Forall P (firstn k l).
Proof.
  intros A P k l H. rewrite <- (firstn_skipn k l) in H. apply Forall_app in H. apply H.
Qed.

Section Playing.
  Variables (ser : message -> list Z) (parse : list Z -> option message) (junk : Hex_Model.mem)
    (profiles : list nat) (get_version : nat) (compatible : message -> bool).
  Notation lines := (lines ser).
  Notation Read := (Read parse junk).
  Notation Play := (Play parse junk profiles get_version compatible).
  Notation play_all := (play_all parse junk profiles get_version compatible).

  Lemma Read_line : forall m r, codec_ok ser parse m ->
    Read (mkStream (lines [m] ++ r) false false) = ReadMessage m (mkStream r false false).
  Proof.
    intros m r (N & B & P). unfold Journal_Model.Read, Journal_Spec.lines. cbn [flat_map].
    rewrite app_nil_r, <- app_assoc.
    rewrite GetLine_spec; [|apply hex_plain; exact B|right; exists r; reflexivity].
    cbn [app after].
    assert (LN : length (hex_of_bytes (ser m)) = 2 * length (ser m)) by apply hex_length.
    destruct (hex_of_bytes (ser m)) as [|a h] eqn:E.
    { destruct (ser m); [contradiction|]. cbn in LN. lia. }
    rewrite <- E in *. rewrite decode_new_correct by (apply hex_ascii; exact B).
    assert (EV : Nat.even (length (hex_of_bytes (ser m))) = true).
    { rewrite LN. apply Nat.even_spec. exists (length (ser m)). reflexivity. }
    rewrite EV, round_trip, P by exact B. reflexivity.
  Qed.

  Lemma Read_end : Read (mkStream [] false false) = ReadNothing (mkStream [] true true).
  Proof. reflexivity. Qed.

  Lemma run_absent : forall l c, ~ In (c_ext c) l ->
    run_profiles l (in_record c) (out_record c) = Some [].
  Proof.
    induction l as [|p l IH]; intros c H; [reflexivity|]. cbn [run_profiles in_record ext].
    destruct (Nat.eqb_spec (c_ext c) p); [exfalso; apply H; left; congruence|].
    apply IH. intros X. apply H. right. exact X.
  Qed.
  Lemma run_present : forall l c, NoDup l -> In (c_ext c) l ->
    run_profiles l (in_record c) (out_record c) = Some [whole c].
  Proof.
    induction l as [|p l IH]; intros c ND H; [destruct H|]. inversion ND; subst.
    cbn [run_profiles in_record out_record ext].
    destruct (Nat.eqb_spec (c_ext c) p) as [<-|N].
    - change (mkMessage (c_ext c) (c_in c) None None) with (in_record c).
      change (mkMessage (c_ext c) None (c_out c) (c_return c)) with (out_record c).
      rewrite run_absent by assumption.
      unfold MergeFrom, whole. cbn. destruct (c_out c), (c_return c); reflexivity.
    - apply IH; [assumption|]. destruct H; [congruence|assumption].
  Qed.

  Notation playable := (playable ser parse profiles get_version compatible).

  Lemma Play_pair : forall c r, NoDup profiles -> playable c ->
    Play (mkStream (lines [in_record c; out_record c] ++ r) false false)
    = PlayMessages (in_record c) (out_record c) [whole c] (mkStream r false false).
  Proof.
    intros c r ND ([OK1 OK2] & IN & V). unfold Journal_Model.Play.
    change [in_record c; out_record c] with ([in_record c] ++ [out_record c]).
    rewrite lines_app, <- app_assoc.
    rewrite Read_line by assumption. rewrite Read_line by assumption.
    assert (G : (ext (in_record c) =? get_version) && negb (compatible (out_record c)) = false).
    { cbn [in_record ext]. destruct (Nat.eqb_spec (c_ext c) get_version); [|reflexivity].
      rewrite V by assumption. reflexivity. }
    rewrite G, run_present by assumption. reflexivity.
  Qed.

  Lemma play_pairs : forall calls r fuel, NoDup profiles -> Forall playable calls ->
    play_all (length calls + fuel) (mkStream (lines (paired calls) ++ r) false false)
    = let '(l, e) := play_all fuel (mkStream r false false) in
      (map (fun c => (in_record c, out_record c, [whole c])) calls ++ l, e).
  Proof.
    induction calls as [|c calls IH]; intros r fuel ND H.
    - cbn [length paired flat_map app map Nat.add]. unfold Journal_Spec.lines. cbn [flat_map app].
      destruct (play_all fuel _); reflexivity.
    - inversion H; subst. cbn [length Nat.add Journal_Model.play_all].
      change (paired (c :: calls)) with ([in_record c; out_record c] ++ paired calls).
      rewrite lines_app, <- app_assoc, Play_pair by assumption.
      rewrite IH by assumption. destruct (play_all fuel _); reflexivity.
  Qed.

  Lemma Play_end : forall pending, (match pending with Some c => call_ok ser parse c | None => True end) ->
    Play (mkStream (lines (first_of pending)) false false)
    = PlayEnd.
  Proof.
    intros [c|] H; unfold Journal_Model.Play; cbn [first_of]; [|reflexivity].
    rewrite <- (app_nil_r (lines [in_record c])), Read_line by apply H. reflexivity.
  Qed.

  (* A line with an odd number of digits stops the player. *)
  Lemma Play_odd : forall bytes k, Forall is_byte bytes -> Nat.odd k = true ->
    k <= length (hex_of_bytes bytes) ->
    Play (mkStream (firstn k (hex_of_bytes bytes)) false false) = PlayFatal.
  Proof.
    intros bytes k B O L. unfold Journal_Model.Play, Journal_Model.Read.
    rewrite <- (app_nil_r (firstn k _)), GetLine_spec;
      [|apply Forall_firstn, hex_plain; exact B|left; reflexivity].
    assert (LN : length (firstn k (hex_of_bytes bytes)) = k) by (rewrite firstn_length; lia).
    destruct (firstn k (hex_of_bytes bytes)) as [|a h] eqn:E.
    { cbn in LN. subst k. discriminate O. }
    rewrite <- E in *. rewrite decode_new_correct
      by (apply Forall_firstn, hex_ascii; exact B).
    rewrite LN, <- Nat.negb_odd, O. reflexivity.
  Qed.
End Playing.

Lemma run_profiles_pairs l : forall m_in m_out m ran, run_profiles l m_in m_out = Some (m :: ran) ->
  ext m_in = ext m_out /\ In (ext m_in) l /\ m = MergeFrom m_in m_out.
Proof.
  induction l as [|p l IH]; intros m_in m_out m ran H; [discriminate|]. cbn [run_profiles] in H.
  destruct (Nat.eqb_spec (ext m_in) p) as [<-|N].
  - destruct (Nat.eqb_spec (ext m_out) (ext m_in)) as [E|]; [|discriminate].
    destruct (run_profiles l m_in m_out); [|discriminate]. injection H as <- _. split; [auto|]. split; [left; reflexivity|reflexivity].
  - destruct (IH _ _ _ _ H) as (A & B & C). split; [exact A|]. split; [right; exact B|exact C].
Qed.
Lemma played_pairs parse junk profiles get_version compatible st m_in m_out ran st' :
  Play parse junk profiles get_version compatible st = PlayMessages m_in m_out ran st' ->
  ext m_in = ext m_out /\ In (ext m_in) profiles /\ In (MergeFrom m_in m_out) ran.
Proof.
  unfold Play. intros H. destruct (Read parse junk st) as [?|m1 s1|]; try discriminate H. destruct (Read parse junk s1) as [?|m2 s2|]; try discriminate H.
  destruct ((ext m1 =? get_version) && negb (compatible m2)); [discriminate H|].
  destruct (run_profiles profiles m1 m2) as [[|m ran']|] eqn:E; try discriminate H. injection H as <- <- <- _.
  destruct (run_profiles_pairs _ _ _ _ _ E) as (A & B & C). split; [exact A|]. split; [exact B|]. left. exact C.
Qed.
