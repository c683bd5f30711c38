(* Proofs about the recorder. *)
From Coq Require Import ZArith List Bool Arith Lia.
From Verif Require Import Hex_Model Hex_Proofs Journal_Model Journal_Spec.
Import ListNotations.
Local Open Scope nat_scope.

Lemma lines_app : forall ser a b, lines ser (a ++ b) = lines ser a ++ lines ser b.
Proof. intros. apply flat_map_app. Qed.
Lemma paired_app : forall a b, paired (a ++ b) = paired a ++ paired b.
Proof. intros. apply flat_map_app. Qed.

Lemma c_string_hex : forall l, Forall is_byte l -> c_string (hex_of_bytes l ++ [0%Z]) = hex_of_bytes l.
Proof.
  intros l H. pose proof (hex_alphabet l H) as A. revert A.
  generalize (hex_of_bytes l) as h. induction h as [|x h IH]; intros A; [reflexivity|].
  inversion A; subst. cbn [app c_string]. destruct (Z.eqb_spec x 0); [lia|].
  rewrite IH by assumption. reflexivity.
Qed.

Lemma WriteLocked_spec : forall ser parse junk m, codec_ok ser parse m ->
  WriteLocked ser junk m = Some (lines ser [m]).
Proof.
  intros ser parse junk m (N & B & _). unfold WriteLocked, lines. cbn [flat_map].
  rewrite app_nil_r, encode_new_correct by assumption.
  destruct (ser m) eqn:E; [contradiction|]. rewrite c_string_hex by assumption. reflexivity.
Qed.

Section Recording.
  Variables (ser : message -> list Z) (parse : list Z -> option message) (junk : Hex_Model.mem).
  Variable ok : call -> Prop.
  Hypothesis ok_call : forall c, ok c -> call_ok ser parse c.
  Notation lines := (lines ser).
  Notation step := (step ser junk).
  Notation exec := (exec ser junk).

  Definition waiting (s : state) (t : nat) :=
    stacks s t = [] \/ exists c, ok c /\ stacks s t = [CtorLock (gen s) c].

  Definition holding (s : state) (o : nat) (f : list Z) (L : list (nat * call)) :=
    (exists c, ok c /\ stacks s o = [CtorWrite (gen s) c] /\ f = lines (paired (map snd L))) \/
    (exists c r, ok c /\
       stacks s o = [Running c (is_some (c_out c)) (r && is_some (c_return c)) r] /\
       f = lines (paired (map snd L) ++ [in_record c])) \/
    (exists c, ok c /\
       stacks s o = [DtorWrite (gen s) c (is_some (c_out c)) (is_some (c_return c))] /\
       f = lines (paired (map snd L) ++ [in_record c])) \/
    (exists c, ok c /\ stacks s o = [DtorUnlock (gen s) c] /\ f = lines (paired (map snd L))).

  Definition Inv (s : state) (L : list (nat * call)) :=
    (forall f, In f (closed s) -> exists calls, Forall ok calls /\ f = lines (paired calls)) /\
    Forall ok (map snd L) /\
    match active s with
    | None => forall t, stacks s t = [] \/ exists c r, stacks s t = [Running c false false r]
    | Some (f, None) => (forall t, waiting s t) /\ f = lines (paired (map snd L))
    | Some (f, Some o) => (forall t, t <> o -> waiting s t) /\ holding s o f L
    end.

  Definition call_of (f : frame) : list call :=
    match f with
    | CtorLock _ c | CtorWrite _ c | Running c _ _ _ | DtorWrite _ c _ _ => [c]
    | DtorUnlock _ _ => []
    end.
  (* The call of a thread whose second record is not written. *)
  Definition current (s : state) (t : nat) : list call := flat_map call_of (stacks s t).

  (* What an event adds to the calls of a thread. *)
  Definition added (t : nat) (e : event) (u : nat) : list call := begun u [(t, e)].

  Lemma out_filled : forall c,
    message_at_destruction c (is_some (c_out c)) (is_some (c_return c)) = out_record c.
  Proof. intros [x i [o|] [r|]]; reflexivity. Qed.

  Lemma push_same : forall s t x, push s t x t = x.
  Proof. intros. unfold push. rewrite Nat.eqb_refl. reflexivity. Qed.
  Lemma push_other : forall s t x u, u <> t -> push s t x u = stacks s u.
  Proof. intros s t x u H. unfold push. destruct (Nat.eqb_spec u t); [contradiction|reflexivity]. Qed.

  Lemma from_app : forall t a b, from t (a ++ b) = from t a ++ from t b.
  Proof. intros. unfold from. rewrite filter_app, map_app. reflexivity. Qed.
  Lemma from_one : forall t u c, from t [(u, c)] = if u =? t then [c] else [].
  Proof. intros. unfold from. cbn [filter fst]. destruct (u =? t); reflexivity. Qed.

  Lemma added_begin : forall t c u, added t (EBegin c) u = if t =? u then [c] else [].
  Proof. intros. unfold added, begun. cbn [flat_map]. destruct (t =? u); reflexivity. Qed.
  Lemma added_none : forall t e u, (forall c, e <> EBegin c) -> added t e u = [].
  Proof.
    intros t e u H. unfold added, begun. cbn [flat_map]. destruct (t =? u); [|reflexivity].
    destruct e; try reflexivity. exfalso. apply (H c). reflexivity.
  Qed.

  Definition balanced (s : state) (L : list (nat * call)) (s' : state) (L' : list (nat * call))
      (t : nat) (e : event) :=
    forall u, from u L' ++ current s' u = from u L ++ current s u ++ added t e u.

  Ltac cases u t := destruct (Nat.eq_dec u t) as [->|?];
    [rewrite ?push_same|rewrite ?push_other by assumption].

  Lemma step_inv : forall s t e L, Inv s L -> allowed ser parse s t e ->
    (forall c, e = EBegin c -> ok c) ->
    match step s t e with
    | Next s' => exists L', Inv s' L' /\
        (switches e = false -> active s <> None -> active s' <> None /\ balanced s L s' L' t e)
    | Blocked => True
    | _ => False
    end.
  Proof.
    intros s t e L (HC & HL & HA) AL HQ. unfold Journal_Model.step.
    destruct e as [c| | | | |]; cbn [allowed] in AL.
    - (* EBegin *)
      destruct AL as [E _]. pose proof (HQ c eq_refl) as OK. rewrite E. exists L. destruct (active s) as [[f [o|]]|] eqn:EA.
      + destruct HA as [HW HH].
        assert (N : t <> o).
        { intros ->. unfold holding in HH. rewrite E in HH.
          destruct HH as [(c' & _ & X & _)|[(c' & r & _ & X & _)|[(c' & _ & X & _)|(c' & _ & X & _)]]];
            discriminate X. }
        split.
        * split; [exact HC|]. split; [exact HL|]. cbn [active set_stack]. rewrite EA. split.
          { intros u Hu. unfold waiting. cbn [stacks gen set_stack]. cases u t.
            - right. exists c. split; [exact OK|reflexivity].
            - apply HW. assumption. }
          { unfold holding. cbn [stacks gen set_stack]. rewrite push_other by congruence. exact HH. }
        * intros _ _. split; [cbn [active set_stack]; rewrite EA; discriminate|].
          intros u. unfold current. cbn [stacks set_stack]. rewrite added_begin. cases u t.
          { rewrite E, Nat.eqb_refl. reflexivity. }
          { destruct (Nat.eqb_spec t u); [congruence|]. rewrite app_nil_r. reflexivity. }
      + destruct HA as [HW HF]. split.
        * split; [exact HC|]. split; [exact HL|]. cbn [active set_stack]. rewrite EA. split; [|exact HF].
          intros u. unfold waiting. cbn [stacks gen set_stack]. cases u t.
          { right. exists c. split; [exact OK|reflexivity]. }
          { apply HW. }
        * intros _ _. split; [cbn [active set_stack]; rewrite EA; discriminate|].
          intros u. unfold current. cbn [stacks set_stack]. rewrite added_begin. cases u t.
          { rewrite E, Nat.eqb_refl. reflexivity. }
          { destruct (Nat.eqb_spec t u); [congruence|]. rewrite app_nil_r. reflexivity. }
      + split; [|congruence]. split; [exact HC|]. split; [exact HL|]. cbn [active set_stack]. rewrite EA.
        intros u. cbn [stacks set_stack]. cases u t.
        * right. exists c, false. reflexivity.
        * apply HA.
    - (* EStep *)
      destruct (active s) as [[f [o|]]|] eqn:EA.
      + destruct HA as [HW HH]. destruct (Nat.eq_dec t o) as [->|N].
        * destruct HH as [(c & OK & E & EF)|[(c & r & OK & E & EF)|[(c & OK & E & EF)|(c & OK & E & EF)]]];
            rewrite E.
          { rewrite Nat.eqb_refl, (WriteLocked_spec ser parse) by (apply ok_call in OK; apply OK).
            exists L. split.
            - split; [exact HC|]. split; [exact HL|]. cbn [active set_active]. split.
              + intros u Hu. unfold waiting. cbn [stacks gen set_active].
                rewrite push_other by assumption. apply HW. assumption.
              + right; left. exists c, false. split; [exact OK|].
                split; [cbn [stacks set_active]; apply push_same|].
                rewrite EF, lines_app. reflexivity.
            - intros _ _. split; [discriminate|]. intros u. rewrite added_none by discriminate.
              unfold current. cbn [stacks set_active]. rewrite app_nil_r. cases u o; [|reflexivity].
              rewrite E. reflexivity. }
          { exact I. }
          { rewrite Nat.eqb_refl, out_filled, (WriteLocked_spec ser parse) by (apply ok_call in OK; apply OK).
            exists (L ++ [(o, c)]). split.
            - split; [exact HC|]. split.
              { rewrite map_app. apply Forall_app. split; [exact HL|]. repeat constructor. exact OK. } cbn [active set_active]. split.
              + intros u Hu. unfold waiting. cbn [stacks gen set_active].
                rewrite push_other by assumption. apply HW. assumption.
              + right; right; right. exists c. split; [exact OK|].
                split; [cbn [stacks set_active]; apply push_same|].
                rewrite EF, map_app, paired_app, !lines_app, <- app_assoc. f_equal.
                cbn [map snd paired flat_map app].
                rewrite <- (lines_app ser [in_record c] [out_record c]). reflexivity.
            - intros _ _. split; [discriminate|]. intros u. rewrite added_none by discriminate.
              unfold current. cbn [stacks set_active].
              rewrite app_nil_r, from_app, from_one. cases u o.
              + rewrite E, Nat.eqb_refl. cbn [flat_map call_of app]. rewrite app_nil_r. reflexivity.
              + destruct (Nat.eqb_spec o u); [congruence|]. rewrite app_nil_r. reflexivity. }
          { rewrite Nat.eqb_refl, Nat.eqb_refl. exists L. split.
            - split; [exact HC|]. split; [exact HL|]. cbn [active set_active]. split; [|exact EF].
              intros u. unfold waiting. cbn [stacks gen set_active]. cases u o; [left; reflexivity|].
              apply HW. assumption.
            - intros _ _. split; [discriminate|]. intros u. rewrite added_none by discriminate.
              unfold current. cbn [stacks set_active]. rewrite app_nil_r. cases u o; [|reflexivity].
              rewrite E. reflexivity. }
        * destruct (HW t N) as [E|(c & OK & E)]; rewrite E; [exact I|].
          rewrite Nat.eqb_refl. exact I.
      + destruct HA as [HW EF]. destruct (HW t) as [E|(c & OK & E)]; rewrite E; [exact I|].
        rewrite Nat.eqb_refl. exists L. split.
        * split; [exact HC|]. split; [exact HL|]. cbn [active set_active]. split.
          { intros u Hu. unfold waiting. cbn [stacks gen set_active].
            rewrite push_other by assumption. apply HW. }
          { left. exists c. split; [exact OK|]. split; [cbn [stacks set_active]; apply push_same|exact EF]. }
        * intros _ _. split; [discriminate|]. intros u. rewrite added_none by discriminate.
          unfold current. cbn [stacks set_active]. rewrite app_nil_r. cases u t; [|reflexivity].
          rewrite E. reflexivity.
      + destruct (HA t) as [E|(c & r & E)]; rewrite E; exact I.
    - (* EReturn *)
      destruct (active s) as [[f [o|]]|] eqn:EA.
      + destruct HA as [HW HH]. destruct (Nat.eq_dec t o) as [->|N].
        * destruct HH as [(c & OK & E & EF)|[(c & r & OK & E & EF)|[(c & OK & E & EF)|(c & OK & E & EF)]]];
            rewrite E; try exact I.
          destruct r; [exfalso; apply (AL _ _ _ _ E)|].
          exists L. split.
          { split; [exact HC|]. split; [exact HL|]. cbn [active set_stack]. rewrite EA. split.
            - intros u Hu. unfold waiting. cbn [stacks gen set_stack].
              rewrite push_other by assumption. apply HW. assumption.
            - right; left. exists c, true. split; [exact OK|].
              split; [cbn [stacks set_stack]; apply push_same|exact EF]. }
          { intros _ _. split; [cbn [active set_stack]; rewrite EA; discriminate|].
            intros u. rewrite added_none by discriminate.
            unfold current. cbn [stacks set_stack]. rewrite app_nil_r. cases u o; [|reflexivity].
            rewrite E. reflexivity. }
        * destruct (HW t N) as [E|(c & OK & E)]; rewrite E; exact I.
      + destruct HA as [HW EF]. destruct (HW t) as [E|(c & OK & E)]; rewrite E; exact I.
      + destruct (HA t) as [E|(c & r & E)]; rewrite E; [exact I|].
        destruct r; [exfalso; apply (AL _ _ _ _ E)|].
        exists L. split; [|congruence]. split; [exact HC|]. split; [exact HL|]. cbn [active set_stack]. rewrite EA.
        intros u. cbn [stacks set_stack]. cases u t; [|apply HA].
        right. exists c, true. reflexivity.
    - (* EEnd *)
      destruct (active s) as [[f [o|]]|] eqn:EA.
      + destruct HA as [HW HH]. destruct (Nat.eq_dec t o) as [->|N].
        * destruct HH as [(c & OK & E & EF)|[(c & r & OK & E & EF)|[(c & OK & E & EF)|(c & OK & E & EF)]]];
            rewrite E; try exact I.
          destruct r; [|exfalso; apply (AL _ _ _ _ E)]. cbn [andb] in E |- *.
          exists L. split.
          { split; [exact HC|]. split; [exact HL|]. cbn [active set_stack]. rewrite EA. split.
            - intros u Hu. unfold waiting. cbn [stacks gen set_stack].
              rewrite push_other by assumption. apply HW. assumption.
            - right; right; left. exists c. split; [exact OK|].
              split; [cbn [stacks set_stack]; apply push_same|exact EF]. }
          { intros _ _. split; [cbn [active set_stack]; rewrite EA; discriminate|].
            intros u. rewrite added_none by discriminate.
            unfold current. cbn [stacks set_stack]. rewrite app_nil_r. cases u o; [|reflexivity].
            rewrite E. reflexivity. }
        * destruct (HW t N) as [E|(c & OK & E)]; rewrite E; exact I.
      + destruct HA as [HW EF]. destruct (HW t) as [E|(c & OK & E)]; rewrite E; exact I.
      + destruct (HA t) as [E|(c & r & E)]; rewrite E; [exact I|].
        destruct r; [|exfalso; apply (AL _ _ _ _ E)].
        exists L. split; [|congruence]. split; [exact HC|]. split; [exact HL|]. cbn [active set_stack]. rewrite EA.
        intros u. cbn [stacks set_stack]. cases u t; [|apply HA].
        left. reflexivity.
    - (* EActivate *)
      rewrite (AL t). destruct (active s) as [[f w]|] eqn:EA.
      + exists L. split; [|discriminate]. split; [exact HC|]. split; [exact HL|]. rewrite EA. exact HA.
      + exists []. split; [|discriminate]. split; [exact HC|]. split; [constructor|]. cbn [active]. split; [|reflexivity].
        intros u. left. apply AL.
    - (* EDeactivate *)
      rewrite (AL t). destruct (active s) as [[f [o|]]|] eqn:EA.
      + destruct HA as [_ HH]. unfold holding in HH. rewrite (AL o) in HH.
        destruct HH as [(c' & _ & X & _)|[(c' & r & _ & X & _)|[(c' & _ & X & _)|(c' & _ & X & _)]]];
          discriminate X.
      + exists L. split; [|discriminate]. split.
        * intros g Hg. cbn [closed] in Hg. apply in_app_or in Hg. destruct Hg as [Hg|[<-|[]]].
          { apply HC. exact Hg. }
          { exists (map snd L). split; [exact HL|apply HA]. }
        * split; [exact HL|]. cbn [active]. intros u. left. apply AL.
      + exists L. split; [|discriminate]. split; [exact HC|]. split; [exact HL|]. rewrite EA. exact HA.
  Qed.

  Lemma exec_inv : forall l s L, Inv s L -> disciplined ser parse junk s l -> all_calls ok l ->
    match exec s l with
    | Next s' => exists L', Inv s' L'
    | Blocked => True
    | _ => False
    end.
  Proof.
    induction l as [|[t e] l IH]; intros s L HI HD HQ; cbn [Journal_Model.exec].
    - exists L. exact HI.
    - inversion HD as [|? ? ? ? AL NX]; subst. pose proof (step_inv s t e L HI AL (fun c X => HQ t c (or_introl (f_equal (pair t) X)))) as ST.
      destruct (step s t e) as [s'| | |] eqn:ES; try exact ST.
      destruct ST as (L' & HI' & _). apply (IH s' L' HI'); [apply NX; reflexivity|].
      intros u c X. apply (HQ u c). right. exact X.
  Qed.

  Lemma begun_cons : forall u x l, begun u (x :: l) = begun u [x] ++ begun u l.
  Proof. intros u [t e] l. unfold begun. cbn [flat_map]. rewrite app_nil_r. reflexivity. Qed.

  Lemma exec_log : forall l s L s', Inv s L -> active s <> None ->
    disciplined ser parse junk s l -> all_calls ok l -> Forall (fun x => switches (snd x) = false) l ->
    exec s l = Next s' ->
    exists L', Inv s' L' /\ active s' <> None /\
      forall u, from u L' ++ current s' u = from u L ++ current s u ++ begun u l.
  Proof.
    induction l as [|[t e] l IH]; intros s L s' HI HA HD HQ HS E; cbn [Journal_Model.exec] in E.
    - injection E as <-. exists L. split; [exact HI|]. split; [exact HA|].
      intros u. unfold begun. cbn [flat_map]. rewrite app_nil_r. reflexivity.
    - inversion HD as [|? ? ? ? AL NX]; subst. inversion HS as [|? ? HS1 HS2]; subst.
      pose proof (step_inv s t e L HI AL (fun c X => HQ t c (or_introl (f_equal (pair t) X)))) as ST.
      destruct (step s t e) as [s1| | |] eqn:ES; try discriminate E.
      destruct ST as (L1 & HI1 & B). destruct (B HS1 HA) as [A1 B1].
      destruct (IH s1 L1 s' HI1 A1 (NX s1 eq_refl)
        (fun u c X => HQ u c (or_intror X)) HS2 E) as (L' & HI' & A' & B').
      exists L'. split; [exact HI'|]. split; [exact A'|]. intros u.
      rewrite B', begun_cons, app_assoc, B1. unfold added. rewrite <- !app_assoc. reflexivity.
  Qed.

  (* Some thread that is in a call may progress. *)
  Lemma progress : forall s L t, Inv s L -> stacks s t <> [] ->
    exists u e s', (e = EStep \/ e = EReturn \/ e = EEnd) /\
      allowed ser parse s u e /\ step s u e = Next s'.
  Proof.
    intros s L t (_ & _ & HA) N. unfold Journal_Model.step.
    destruct (active s) as [[f [o|]]|] eqn:EA.
    - destruct HA as [_ HH].
      destruct HH as [(c & OK & E & EF)|[(c & r & OK & E & EF)|[(c & OK & E & EF)|(c & OK & E & EF)]]].
      + exists o, EStep. rewrite E, Nat.eqb_refl, (WriteLocked_spec ser parse) by (apply ok_call in OK; apply OK).
        eexists. split; [auto|]. split; [exact I|reflexivity].
      + destruct r.
        * exists o, EEnd. rewrite E. eexists. split; [auto|]. split; [|reflexivity].
          intros c' x y l X. rewrite E in X. discriminate X.
        * exists o, EReturn. rewrite E. eexists. split; [auto|]. split; [|reflexivity].
          intros c' x y l X. rewrite E in X. discriminate X.
      + exists o, EStep. rewrite E, Nat.eqb_refl, out_filled, (WriteLocked_spec ser parse) by (apply ok_call in OK; apply OK).
        eexists. split; [auto|]. split; [exact I|reflexivity].
      + exists o, EStep. rewrite E, Nat.eqb_refl, Nat.eqb_refl.
        eexists. split; [auto|]. split; [exact I|reflexivity].
    - destruct HA as [HW _]. destruct (HW t) as [E|(c & OK & E)]; [contradiction|].
      exists t, EStep. rewrite E, Nat.eqb_refl.
      eexists. split; [auto|]. split; [exact I|reflexivity].
    - destruct (HA t) as [E|(c & r & E)]; [contradiction|]. destruct r.
      + exists t, EEnd. rewrite E. eexists. split; [auto|]. split; [|reflexivity].
        intros c' x y l X. rewrite E in X. discriminate X.
      + exists t, EReturn. rewrite E. eexists. split; [auto|]. split; [|reflexivity].
        intros c' x y l X. rewrite E in X. discriminate X.
  Qed.

  (* A nested call waits forever. *)
  Definition stuck (s : state) (t : nat) (f : list Z) (stack : list frame) :=
    active s = Some (f, Some t) /\ stacks s t = stack /\
    forall u, u <> t -> stacks s u = [] \/ exists c, stacks s u = [CtorLock (gen s) c].

  Lemma stuck_step : forall s t f c l u e s', stuck s t f (CtorLock (gen s) c :: l) ->
    switches e = false -> step s u e = Next s' ->
    stuck s' t f (CtorLock (gen s') c :: l).
  Proof.
    intros s t f c l u e s' (EA & ET & EO) NS E. unfold Journal_Model.step in E.
    destruct (Nat.eq_dec u t) as [->|N].
    - rewrite ET, EA, Nat.eqb_refl in E. destruct e; discriminate E || discriminate NS.
    - destruct (EO u N) as [EU|(c' & EU)]; rewrite EU in E.
      + destruct e; try discriminate E; try discriminate NS.
        injection E as <-. rewrite EA. split; [exact EA|]. split.
        * cbn [stacks set_stack gen]. rewrite push_other by congruence. exact ET.
        * intros w Hw. cbn [stacks set_stack gen]. destruct (Nat.eq_dec w u) as [->|Nw].
          { rewrite push_same. right. exists c0. reflexivity. }
          { rewrite push_other by assumption. apply EO. assumption. }
      + destruct e; try discriminate E; try discriminate NS.
        rewrite EA, Nat.eqb_refl in E. discriminate E.
  Qed.

  Lemma stuck_exec : forall evs s t f c l s', stuck s t f (CtorLock (gen s) c :: l) ->
    Forall (fun x => switches (snd x) = false) evs -> exec s evs = Next s' ->
    stuck s' t f (CtorLock (gen s') c :: l).
  Proof.
    induction evs as [|[u e] evs IH]; intros s t f c l s' HS HF E; cbn [Journal_Model.exec] in E.
    - injection E as <-. exact HS.
    - inversion HF as [|? ? H1 H2]; subst. destruct (step s u e) as [s1| | |] eqn:ES; try discriminate E.
      apply (IH s1); [|exact H2|exact E]. apply (stuck_step s t f c l u e); assumption.
  Qed.
End Recording.
