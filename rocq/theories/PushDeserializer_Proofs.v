(** Proofs about PushDeserializer_Model. *)
From Coq Require Import List Arith Bool Lia Permutation.
From Verif Require Import PushDeserializer_Model.
Import ListNotations.

(** * Specification *)

(** The bytes that a push contributes to the stream. *)
Definition plain (c : config) (l : list byte) : list byte :=
  match compressor c, l with
  | Some u, _ :: _ => match u l with Some r => r | None => [] end
  | _, _ => l
  end.

Definition somes (l : list (option nat)) : list nat := flat_map (fun d => match d with Some x => [x] | None => [] end) l.

(** A push of data: it is not empty and, if there is a compressor, it is the compression of something that is not
    empty into one chunk. *)
Definition data_push (c : config) (p : push) : Prop :=
  bytes p <> [] /\ forall u, compressor c = Some u ->
    length (bytes p) <= compressed_chunk_size c /\ exists r, u (bytes p) = Some r /\ r <> [].

(** The client pushes data, and ends with an empty push. *)
Definition client (c : config) (p : list push) (d : option nat) : list push := p ++ [Push [] d].
Definition valid (c : config) (p : list push) : Prop :=
  0 < queued_chunk_size c /\ 0 < number_of_chunks c /\ Forall (data_push c) p.

(** * Chunks *)

Fixpoint chunks (fuel q : nat) (l : list byte) (d : option nat) : list (list byte * option nat) :=
  match fuel with
  | O => []
  | S fuel' => if length l <=? q then [(l, d)] else (firstn q l, None) :: chunks fuel' q (skipn q l) d
  end.
Definition push_chunks (c : config) (x : list byte * option nat) : list (list byte * option nat) :=
  chunks (S (length (fst x))) (queued_chunk_size c) (fst x) (snd x).

Lemma chunks_fuel q : 0 < q -> forall l f1 f2 d, length l < f1 -> length l < f2 -> chunks f1 q l d = chunks f2 q l d.
Proof.
  intros Hq. assert (H : forall n l f1 f2 d, length l < n -> length l < f1 -> length l < f2 -> chunks f1 q l d = chunks f2 q l d).
  { induction n; intros l f1 f2 d Hn H1 H2; [lia|]. destruct f1, f2; try lia. cbn [chunks].
    destruct (Nat.leb_spec (length l) q); [reflexivity|]. f_equal. apply IHn; rewrite skipn_length; lia. }
  intros. eapply H; eauto.
Qed.

Lemma push_chunks_last c l d : length l <= queued_chunk_size c -> push_chunks c (l, d) = [(l, d)].
Proof. intros H. unfold push_chunks. cbn [chunks fst snd]. apply Nat.leb_le in H. rewrite H. reflexivity. Qed.

Lemma push_chunks_cons c l d : 0 < queued_chunk_size c -> queued_chunk_size c < length l ->
  push_chunks c (l, d) = (firstn (queued_chunk_size c) l, None) :: push_chunks c (skipn (queued_chunk_size c) l, d).
Proof.
  intros Hq H. unfold push_chunks. cbn [fst snd]. set (f := S (length (skipn (queued_chunk_size c) l))).
  cbn [chunks]. destruct (Nat.leb_spec (length l) (queued_chunk_size c)); [lia|]. f_equal.
  apply chunks_fuel; auto; unfold f; rewrite skipn_length; lia.
Qed.

Definition all_chunks (c : config) (p : list push) := flat_map (fun p => push_chunks c (bytes p, done_callback p)) p.
Definition pending_chunks (c : config) (s : state) :=
  (match pushing s with Some x => push_chunks c x | None => [] end) ++ all_chunks c (pushes s).

Definition data_chunk (c : config) (x : list byte * option nat) : Prop :=
  fst x <> [] /\ forall u, compressor c = Some u -> exists r, u (fst x) = Some r /\ r <> [].

Lemma data_chunks c : 0 < queued_chunk_size c -> forall p, data_push c p -> Forall (data_chunk c) (push_chunks c (bytes p, done_callback p)).
Proof.
  intros Hq [l d] (H1 & H2). cbn [bytes done_callback] in *. unfold queued_chunk_size in *.
  destruct (compressor c) as [u|] eqn:Eu.
  - destruct (H2 u eq_refl) as (H3 & r & H4 & H5). rewrite push_chunks_last by (unfold queued_chunk_size; rewrite Eu; assumption).
    constructor; [|constructor]. split; [assumption|]. cbn. intros u' Hu. rewrite Eu in Hu. injection Hu as <-. eauto.
  - clear H2. assert (G : forall n l, length l < n -> l <> [] -> Forall (data_chunk c) (push_chunks c (l, d))).
    { assert (Hn : forall x, fst x <> [] -> data_chunk c x) by (intros x Hx; split; [assumption|]; rewrite Eu; discriminate).
      induction n; intros l0 Hl H0; [lia|]. destruct (le_lt_dec (length l0) (queued_chunk_size c)) as [Hle|Hgt].
      - rewrite push_chunks_last by assumption. constructor; [|constructor]. apply Hn. assumption.
      - assert (Hq' : queued_chunk_size c = chunk_size c) by (unfold queued_chunk_size; rewrite Eu; reflexivity).
        rewrite push_chunks_cons by lia. constructor.
        + apply Hn. cbn. destruct l0; [congruence|]. rewrite Hq'. destruct (chunk_size c); [lia|discriminate].
        + apply IHn; [rewrite skipn_length; lia|]. intros E. apply (f_equal (@length _)) in E. rewrite skipn_length in E. cbn in E. lia. }
    eapply G; eauto.
Qed.

(** * Invariant *)

Definition chunk_bytes (c : config) (l : list (list byte * option nat)) : list byte := concat (map (fun x => plain c (fst x)) l).

Lemma chunk_bytes_app c l1 l2 : chunk_bytes c (l1 ++ l2) = chunk_bytes c l1 ++ chunk_bytes c l2.
Proof. unfold chunk_bytes. rewrite map_app, concat_app. reflexivity. Qed.
Lemma somes_app l1 l2 : somes (l1 ++ l2) = somes l1 ++ somes l2.
Proof. apply flat_map_app. Qed.
Lemma run_somes d l : run d l = l ++ somes [d].
Proof. destruct d; cbn; rewrite ?app_nil_r; reflexivity. Qed.

(** [P]: the chunks pulled so far whose callback slot was processed; [o]: the last chunk pulled, if any, whose slot is
    at the front of [done]; [Q]: the chunks in the queue. *)
Record inv (c : config) (p : list push) (d : option nat) (s : state) : Prop := Inv {
  inv_crash : crashed s = false;
  inv_suffix : exists l, client c p d = l ++ pushes s;
  inv_stream : exists P o Q,
    P ++ o ++ Q ++ pending_chunks c s = all_chunks c (client c p d) /\
    queue s = map fst Q /\
    (pc s <> DDone -> done s = match o with [] => None | x :: _ => snd x end :: map snd Q) /\
    (pc s = DDone -> done s = [] /\ o = []) /\
    ((o = [] /\ (P = [] \/ pc s = DDone)) \/ exists x, o = [x]) /\
    consumed s ++ current s = chunk_bytes c (P ++ o) /\
    (chunk_bytes c P ++ skipn (length (chunk_bytes c P)) (consumed s) = consumed s) /\
    ran s = somes (map snd P) /\
    (pc s = DRead -> Forall (data_chunk c) (P ++ o)) /\
    (pc s = DEnd -> exists b, o = [([], b)]) /\
    (pc s <> DRead -> current s = [] /\ Q = [] /\ pending_chunks c s = []) }.

Lemma all_client c p d : all_chunks c (client c p d) = all_chunks c p ++ [([], d)].
Proof. unfold all_chunks, client. rewrite flat_map_app. cbn [flat_map bytes done_callback]. rewrite push_chunks_last by apply Nat.le_0_l. reflexivity. Qed.

Lemma all_data c p : valid c p -> Forall (data_chunk c) (all_chunks c p).
Proof.
  intros (Hq & _ & Hp). unfold all_chunks. induction Hp; cbn [flat_map]; [constructor|].
  apply Forall_app. split; [|assumption]. apply (data_chunks c Hq x H).
Qed.

(** A chunk of the stream is either data or the last one. *)
Lemma chunk_cases c p d P x R : valid c p -> P ++ x :: R = all_chunks c (client c p d) ->
  (data_chunk c x) \/ (x = ([], d) /\ R = []).
Proof.
  intros Hv H. rewrite all_client in H. pose proof (all_data c p Hv) as Hd.
  destruct R as [|y R] using rev_ind.
  - apply app_inj_tail in H. destruct H as [_ H]. right. auto.
  - clear IHR. left. change (P ++ x :: R ++ [y]) with (P ++ (x :: R) ++ [y]) in H. rewrite app_assoc in H. apply app_inj_tail in H. destruct H as [H _].
    rewrite <- H in Hd. apply Forall_app in Hd. destruct Hd as [_ Hd]. inversion Hd; assumption.
Qed.

Lemma skipn_self {A} (l1 l2 : list A) : skipn (length l1) (l1 ++ l2) = l2.
Proof. rewrite skipn_app, skipn_all, Nat.sub_diag. reflexivity. Qed.

Lemma inv_initial c p d : inv c p d (initial (client c p d)).
Proof.
  constructor; [reflexivity|exists []; reflexivity|]. exists [], [], []. cbn. repeat split; auto; try discriminate; try congruence.
Qed.

Lemma plain_data c x : data_chunk c x -> plain c (fst x) <> [].
Proof.
  intros (H1 & H2). unfold plain. destruct (compressor c) as [u|]; [|assumption].
  destruct (fst x) eqn:E; [congruence|]. destruct (H2 u eq_refl) as (r & -> & ?). assumption.
Qed.

Lemma push_chunks_not_nil c x : push_chunks c x <> [].
Proof. unfold push_chunks. cbn [chunks]. destruct (length (fst x) <=? queued_chunk_size c); discriminate. Qed.

Lemma client_push c p d x : valid c p -> In x (client c p d) -> forall u, compressor c = Some u -> length (bytes x) <= compressed_chunk_size c.
Proof.
  intros (_ & _ & Hv) Hx u Hu. apply in_app_iff in Hx. destruct Hx as [Hx|[<-|[]]]; [|cbn; lia].
  rewrite Forall_forall in Hv. destruct (Hv x Hx) as (_ & H). apply (H u Hu).
Qed.

Lemma inv_push_step c p d s s' : valid c p -> inv c p d s -> push_step c s = Some s' -> inv c p d s'.
Proof.
  intros Hv [I1 I2 (P & o & Q & J1 & J2 & J3 & J4 & J5 & J6 & J7 & J8 & J9 & J10 & J11)] H.
  assert (Hread : pc s = DRead).
  { destruct (pc s) eqn:Epc; [reflexivity| |];
      (destruct J11 as (_ & _ & J11); [discriminate|]; exfalso; unfold pending_chunks in J11; unfold push_step in H;
       destruct (pushing s) as [x|]; [apply app_eq_nil in J11; destruct J11 as [J11 _]; exact (push_chunks_not_nil _ _ J11)|];
       destruct (pushes s) as [|x l]; [discriminate|];
       cbn [app all_chunks flat_map] in J11; apply app_eq_nil in J11; destruct J11 as [J11 _]; exact (push_chunks_not_nil _ _ J11)). }
  assert (Hnd : pc s <> DDone) by congruence. specialize (J3 Hnd). pose proof Hv as (Hq & _ & _).
  unfold push_step in H. destruct (pushing s) as [[cur dd]|] eqn:Epu.
  - destruct (length (queue s) <? number_of_chunks c); [|discriminate]. injection H as <-.
    constructor; [exact I1|exact I2|]. cbn [queue done pc consumed current ran]. unfold pending_chunks in *. cbn [pushing pushes]. rewrite Epu in J1.
    destruct (Nat.leb_spec (length cur) (queued_chunk_size c)) as [Hle|Hgt].
    + rewrite push_chunks_last in J1 by assumption.
      exists P, o, (Q ++ [(cur, dd)]). rewrite J2, J3, !map_app. cbn [map fst snd].
      split; [rewrite <- J1, <- !app_assoc; reflexivity|].
      split; [f_equal; f_equal; apply firstn_all2; assumption|].
      split; [reflexivity|]. split; [congruence|]. repeat (split; [assumption|]). congruence.
    + rewrite push_chunks_cons in J1 by assumption.
      exists P, o, (Q ++ [(firstn (queued_chunk_size c) cur, None)]). rewrite J2, J3, !map_app. cbn [map fst snd].
      split; [rewrite <- J1, <- !app_assoc; reflexivity|].
      split; [reflexivity|].
      split; [reflexivity|]. split; [congruence|]. repeat (split; [assumption|]). congruence.
  - destruct (pushes s) as [|x l] eqn:Eps; [discriminate|]. destruct I2 as [pre I2].
    assert (Hok : match compressor c with None => true | Some _ => length (bytes x) <=? compressed_chunk_size c end = true).
    { destruct (compressor c) as [u|] eqn:Eu; [|reflexivity]. apply Nat.leb_le. apply (client_push c p d x Hv) with u; [|assumption].
      rewrite I2. apply in_or_app. right. left. reflexivity. }
    rewrite Hok in H. injection H as <-.
    constructor; [exact I1|exists (pre ++ [x]); rewrite <- app_assoc; exact I2|]. cbn [queue done pc consumed current ran].
    exists P, o, Q. unfold pending_chunks in *. cbn [pushing pushes]. rewrite Epu, Eps in J1.
    split; [exact J1|]. split; [assumption|]. split; [auto|]. split; [assumption|]. repeat (split; [assumption|]). congruence.
Qed.

Lemma run_last (P : list (list byte * option nat)) (x : list byte * option nat) : run (snd x) (somes (map snd P)) = somes (map snd (P ++ [x])).
Proof. rewrite run_somes, map_app, somes_app. reflexivity. Qed.

Lemma inv_pull_step c p d s s' : valid c p -> inv c p d s -> pull_step c s = Some s' -> inv c p d s'.
Proof.
  intros Hv [I1 I2 (P & o & Q & J1 & J2 & J3 & J4 & J5 & J6 & J7 & J8 & J9 & J10 & J11)] H.
  unfold pull_step in H. destruct (pc s) eqn:Epc; [| |discriminate].
  - (* reading *)
    specialize (J3 ltac:(discriminate)). specialize (J9 eq_refl).
    destruct (current s) eqn:Ecur; [|discriminate]. rewrite app_nil_r in J6.
    destruct Q as [|y Q]; rewrite J2 in H; cbn [map] in H; [discriminate|].
    rewrite J3 in H.
    set (slot := match o with [] => None | x :: _ => snd x end) in *.
    assert (Hran : run slot (ran s) = somes (map snd (P ++ o))).
    { destruct J5 as [[-> _]|[x ->]]; subst slot; [cbn [run]; rewrite app_nil_r; assumption|]. rewrite J8. apply run_last. }
    assert (Hc : chunk_bytes c (P ++ o) ++ skipn (length (chunk_bytes c (P ++ o))) (consumed s) = consumed s)
      by (rewrite <- J6, skipn_all, app_nil_r; reflexivity).
    rewrite app_assoc in J1. cbn [app] in J1.
    destruct (chunk_cases c p d _ _ _ Hv J1) as [Hd|(Hy & Hnil)].
    + (* a data chunk *)
      pose proof (plain_data _ _ Hd) as Hpl. destruct Hd as (Hd1 & Hd2).
      assert (Hres : (match fst y, compressor c with [], _ | _, None => Some (fst y) | _, Some u => u (fst y) end) = Some (plain c (fst y))).
      { unfold plain in *. destruct (compressor c) as [u|]; destruct (fst y) eqn:Ey; try congruence; try reflexivity.
        destruct (Hd2 u eq_refl) as (r & -> & _). reflexivity. }
      rewrite Hres in H. destruct (plain c (fst y)) as [|b0 r] eqn:Ep; [congruence|]. injection H as <-.
      constructor; [exact I1|exact I2|]. cbn [queue done pc consumed current ran].
      exists (P ++ o), [y], Q. unfold pending_chunks in *. cbn [pushing pushes].
      split; [rewrite <- J1, <- !app_assoc; reflexivity|].
      split; [reflexivity|]. split; [reflexivity|]. split; [discriminate|]. split; [right; eauto|].
      split; [rewrite chunk_bytes_app, <- J6; f_equal; unfold chunk_bytes; cbn [map concat]; rewrite Ep, app_nil_r; reflexivity|].
      split; [assumption|]. split; [assumption|].
      split; [intros _; apply Forall_app; split; [assumption|]; constructor; [split; assumption|constructor]|].
      split; [discriminate|]. congruence.
    + (* the end *)
      subst y. cbn [fst] in H. injection H as <-.
      apply app_eq_nil in Hnil. destruct Hnil as [-> Hnil].
      constructor; [exact I1|exact I2|]. cbn [queue done pc consumed current ran].
      exists (P ++ o), [([], d)], []. unfold pending_chunks in *. cbn [pushing pushes].
      split; [rewrite <- J1; cbn [app]; rewrite Hnil; reflexivity|].
      split; [reflexivity|]. split; [reflexivity|]. split; [discriminate|]. split; [right; eauto|].
      split; [rewrite chunk_bytes_app, <- J6; f_equal; unfold chunk_bytes, plain; cbn; destruct (compressor c); reflexivity|].
      split; [assumption|]. split; [assumption|].
      split; [discriminate|]. split; [eauto|]. auto.
  - (* ending *)
    specialize (J3 ltac:(discriminate)). destruct (J10 eq_refl) as (b & ->). destruct J11 as (K1 & -> & K3); [discriminate|].
    rewrite J3 in H. cbn [map snd] in H. injection H as <-. rewrite K1, app_nil_r in J6.
    assert (Hb : chunk_bytes c (P ++ [([], b)]) = chunk_bytes c P).
    { rewrite chunk_bytes_app. unfold chunk_bytes at 2, plain. cbn. destruct (compressor c); rewrite app_nil_r; reflexivity. }
    constructor; [exact I1|exact I2|]. cbn [queue done pc consumed current ran].
    exists (P ++ [([], b)]), [], []. unfold pending_chunks in *. cbn [pushing pushes].
    split; [rewrite <- J1, <- app_assoc; reflexivity|].
    split; [exact J2|]. split; [congruence|]. split; [auto|]. split; [left; auto|].
    split; [rewrite K1, !app_nil_r; exact J6|].
    split; [rewrite Hb; assumption|]. split; [rewrite J8; apply (run_last P ([], b))|].
    split; [discriminate|]. split; [discriminate|]. auto.
Qed.

Lemma inv_step c p d s s' : valid c p -> inv c p d s -> step c s s' -> inv c p d s'.
Proof.
  intros Hv HI H. destruct H as [s' Hc H|s' Hc H|l r Hc Hp Hcur Hl].
  - eapply inv_push_step; eauto.
  - eapply inv_pull_step; eauto.
  - destruct HI as [I1 I2 (P & o & Q & J1 & J2 & J3 & J4 & J5 & J6 & J7 & J8 & J9 & J10 & J11)].
    constructor; [exact I1|exact I2|]. cbn [queue done pc consumed current ran].
    exists P, o, Q. unfold pending_chunks in *. cbn [pushing pushes]. rewrite Hcur in J6.
    split; [assumption|]. split; [assumption|]. split; [assumption|]. split; [assumption|]. split; [assumption|].
    split; [rewrite <- app_assoc; assumption|].
    split; [|split; [assumption|split; [assumption|split; [assumption|congruence]]]].
    rewrite <- J7, <- app_assoc, skipn_self. reflexivity.
Qed.

Lemma inv_steps c p d s : valid c p -> steps c (initial (client c p d)) s -> inv c p d s.
Proof. intros Hv H. remember (initial (client c p d)) as s0. induction H; subst; eauto using inv_initial, inv_step. Qed.

(** * Theorems *)

Theorem never_crashes c p d s : valid c p -> steps c (initial (client c p d)) s -> crashed s = false.
Proof. intros Hv H. eapply inv_crash, inv_steps; eauto. Qed.

Lemma push_chunks_bytes c : 0 < queued_chunk_size c -> forall x, (forall u, compressor c = Some u -> length (bytes x) <= compressed_chunk_size c) ->
  chunk_bytes c (push_chunks c (bytes x, done_callback x)) = plain c (bytes x) /\ somes (map snd (push_chunks c (bytes x, done_callback x))) = somes [done_callback x] /\
  forall A y B, push_chunks c (bytes x, done_callback x) = A ++ y :: B -> somes (map snd A) = [].
Proof.
  intros Hq [l d]. cbn [bytes done_callback]. intros Hl.
  assert (G : forall n l, length l < n -> (forall u, compressor c = Some u -> length l <= compressed_chunk_size c) ->
    chunk_bytes c (push_chunks c (l, d)) = plain c l /\ somes (map snd (push_chunks c (l, d))) = somes [d] /\
    forall A y B, push_chunks c (l, d) = A ++ y :: B -> somes (map snd A) = []).
  { induction n; intros l0 Hn H0; [lia|]. destruct (le_lt_dec (length l0) (queued_chunk_size c)) as [Hle|Hgt].
    - rewrite push_chunks_last by assumption. split; [unfold chunk_bytes; cbn; apply app_nil_r|]. split; [reflexivity|].
      intros A y B HA. destruct A as [|a A]; [reflexivity|]. destruct A; discriminate.
    - destruct (compressor c) as [u|] eqn:Eu.
      { specialize (H0 u eq_refl). unfold queued_chunk_size in Hgt. rewrite Eu in Hgt. lia. }
      rewrite push_chunks_cons by assumption. destruct (IHn (skipn (queued_chunk_size c) l0)) as (G1 & G2 & G3).
      + rewrite skipn_length. lia.
      + discriminate.
      + assert (Hp : forall x, plain c x = x) by (intros; unfold plain; rewrite Eu; reflexivity).
        rewrite Hp in *. split; [|split].
        * change (plain c (firstn (queued_chunk_size c) l0) ++ chunk_bytes c (push_chunks c (skipn (queued_chunk_size c) l0, d)) = l0).
          rewrite G1, Hp. apply firstn_skipn.
        * exact G2.
        * intros A y B HA. destruct A as [|a A]; [reflexivity|]. cbn [app] in HA. injection HA as <- HA. cbn. eapply G3; eauto. }
  eapply G; eauto.
Qed.

(** A prefix of the stream of chunks consists of some whole pushes and of a piece of the next one that has no
    callback. *)
Lemma prefix_pushes c : 0 < queued_chunk_size c -> forall l, (forall x, In x l -> forall u, compressor c = Some u -> length (bytes x) <= compressed_chunk_size c) ->
  forall P R, P ++ R = all_chunks c l -> exists n B, n <= length l /\
    somes (map snd P) = somes (map done_callback (firstn n l)) /\
    chunk_bytes c P = concat (map (fun x => plain c (bytes x)) (firstn n l)) ++ B /\
    (R = [] -> n = length l /\ B = []).
Proof.
  intros Hq. induction l as [|x l IH]; intros Hl P R H.
  - cbn in H. apply app_eq_nil in H. destruct H as [-> ->]. exists 0, []. auto.
  - cbn [all_chunks flat_map] in H. fold (all_chunks c l) in H.
    destruct (push_chunks_bytes c Hq x) as (G1 & G2 & G3); [intros u Hu; apply Hl with u; [left; reflexivity|assumption]|].
    destruct (le_lt_dec (length (push_chunks c (bytes x, done_callback x))) (length P)) as [Hle|Hlt].
    + (* the whole push is in P *)
      assert (HP : P = push_chunks c (bytes x, done_callback x) ++ skipn (length (push_chunks c (bytes x, done_callback x))) P /\
                   skipn (length (push_chunks c (bytes x, done_callback x))) P ++ R = all_chunks c l).
      { assert (E1 : firstn (length (push_chunks c (bytes x, done_callback x))) P = push_chunks c (bytes x, done_callback x)).
        { apply (f_equal (firstn (length (push_chunks c (bytes x, done_callback x))))) in H.
          rewrite !firstn_app, firstn_all, Nat.sub_diag in H. cbn [firstn] in H. rewrite app_nil_r in H.
          replace (length (push_chunks c (bytes x, done_callback x)) - length P) with 0 in H by lia. cbn [firstn] in H.
          rewrite app_nil_r in H. exact H. }
        split; [rewrite <- E1 at 1; symmetry; apply firstn_skipn|].
        apply (f_equal (skipn (length (push_chunks c (bytes x, done_callback x))))) in H.
        rewrite skipn_self, skipn_app in H.
        replace (length (push_chunks c (bytes x, done_callback x)) - length P) with 0 in H by lia. exact H. }
      destruct HP as (HP1 & HP2). destruct (IH (fun y Hy => Hl y (or_intror Hy)) _ _ HP2) as (n & B & N1 & N2 & N3 & N4).
      exists (S n), B. cbn [firstn map concat length]. rewrite HP1, map_app, somes_app, G2, chunk_bytes_app, G1, N2, N3.
      split; [lia|]. split; [symmetry; apply (somes_app [_])|]. split; [apply app_assoc|]. intros HR. destruct (N4 HR). split; [lia|assumption].
    + exists 0, (chunk_bytes c P). cbn [firstn map concat app].
      assert (HP : exists y B, push_chunks c (bytes x, done_callback x) = P ++ y :: B).
      { assert (E1 : firstn (length P) (push_chunks c (bytes x, done_callback x)) = P).
        { apply (f_equal (firstn (length P))) in H. rewrite !firstn_app, firstn_all, Nat.sub_diag in H. cbn [firstn] in H. rewrite app_nil_r in H.
          replace (length P - length (push_chunks c (bytes x, done_callback x))) with 0 in H by lia. cbn [firstn] in H. rewrite app_nil_r in H. auto. }
        destruct (skipn (length P) (push_chunks c (bytes x, done_callback x))) as [|y B] eqn:E2.
        - apply (f_equal (@length _)) in E2. rewrite skipn_length in E2. cbn [length] in E2. lia.
        - exists y, B. rewrite <- E2. rewrite <- (firstn_skipn (length P) (push_chunks c (bytes x, done_callback x))) at 1. rewrite E1. reflexivity. }
      destruct HP as (y & B & HP). split; [lia|]. split; [apply (G3 _ _ _ HP)|]. split; [reflexivity|].
      intros ->. exfalso. rewrite app_nil_r in H. rewrite H in Hlt. rewrite app_length in Hlt. lia.
Qed.

(** At any time, the callbacks that have run are those of the first [n] pushes, in order, and all the bytes of these
    pushes have been consumed before. *)
Theorem callbacks_in_order c p d s : valid c p -> steps c (initial (client c p d)) s ->
  exists n l, ran s = somes (map done_callback (firstn n (client c p d))) /\
    consumed s = concat (map (fun x => plain c (bytes x)) (firstn n (client c p d))) ++ l.
Proof.
  intros Hv H. destruct (inv_steps c p d s Hv H) as [I1 I2 (P & o & Q & J1 & J2 & J3 & J4 & J5 & J6 & J7 & J8 & J9 & J10 & J11)].
  destruct (prefix_pushes c (proj1 Hv) (client c p d) (fun x Hx => client_push c p d x Hv Hx) _ _ J1) as (n & B & N1 & N2 & N3 & N4).
  exists n, (B ++ skipn (length (chunk_bytes c P)) (consumed s)). rewrite J8, N2. split; [reflexivity|].
  rewrite app_assoc, <- N3. symmetry. exact J7.
Qed.

(** The bytes consumed are at any time a prefix of those pushed. *)
Lemma all_bytes c p d : valid c p -> chunk_bytes c (all_chunks c (client c p d)) = concat (map (fun x => plain c (bytes x)) p).
Proof.
  intros Hv. destruct (prefix_pushes c (proj1 Hv) (client c p d) (fun x Hx => client_push c p d x Hv Hx) (all_chunks c (client c p d)) []) as (n & B & N1 & N2 & N3 & N4);
    [apply app_nil_r|]. destruct (N4 eq_refl) as [-> ->]. rewrite N3, firstn_all, app_nil_r. unfold client. rewrite map_app, concat_app. cbn.
  replace (plain c []) with (@nil byte) by (unfold plain; destruct (compressor c); reflexivity). rewrite !app_nil_r. reflexivity.
Qed.

Theorem consumed_prefix c p d s : valid c p -> steps c (initial (client c p d)) s ->
  exists l, consumed s ++ l = concat (map (fun x => plain c (bytes x)) p).
Proof.
  intros Hv H. destruct (inv_steps c p d s Hv H) as [I1 I2 (P & o & Q & J1 & J2 & J3 & J4 & J5 & J6 & J7 & J8 & J9 & J10 & J11)].
  exists (current s ++ chunk_bytes c (Q ++ pending_chunks c s)).
  rewrite app_assoc, J6, <- chunk_bytes_app, <- app_assoc, J1. apply all_bytes. assumption.
Qed.

(** At the end, all bytes have been consumed and each callback has run exactly once, in order. *)
Theorem complete c p d s : valid c p -> steps c (initial (client c p d)) s -> pc s = DDone ->
  consumed s = concat (map (fun x => plain c (bytes x)) p) /\ ran s = somes (map done_callback (client c p d)) /\
  pushing s = None /\ pushes s = [] /\ queue s = [] /\ done s = [].
Proof.
  intros Hv H Hd. destruct (inv_steps c p d s Hv H) as [I1 I2 (P & o & Q & J1 & J2 & J3 & J4 & J5 & J6 & J7 & J8 & J9 & J10 & J11)].
  destruct (J4 Hd) as [K1 ->]. destruct J11 as (K2 & -> & K3); [congruence|]. rewrite K3 in J1. rewrite K2 in J6. cbn [app] in J1. rewrite !app_nil_r in *.
  destruct (prefix_pushes c (proj1 Hv) (client c p d) (fun x Hx => client_push c p d x Hv Hx) P []) as (n & B & N1 & N2 & N3 & N4); [rewrite app_nil_r; assumption|].
  destruct (N4 eq_refl) as [-> ->]. rewrite firstn_all in *.
  split; [rewrite J6, J1; apply all_bytes; assumption|]. split; [rewrite J8; assumption|].
  unfold pending_chunks in K3. destruct (pushing s) as [x|]; [exfalso; apply app_eq_nil in K3; destruct K3 as [K3 _]; exact (push_chunks_not_nil _ _ K3)|].
  split; [reflexivity|]. split; [|split; [exact J2|assumption]].
  destruct (pushes s) as [|x l]; [reflexivity|]. exfalso. cbn [app all_chunks flat_map] in K3. apply app_eq_nil in K3. destruct K3 as [K3 _].
  exact (push_chunks_not_nil _ _ K3).
Qed.

Theorem no_deadlock c p d s : valid c p -> steps c (initial (client c p d)) s -> pc s <> DDone -> exists s', step c s s'.
Proof.
  intros Hv H Hd. destruct (inv_steps c p d s Hv H) as [I1 I2 (P & o & Q & J1 & J2 & J3 & J4 & J5 & J6 & J7 & J8 & J9 & J10 & J11)].
  specialize (J3 Hd). destruct (pc s) eqn:Epc; [| |congruence].
  - destruct (current s) as [|b r] eqn:Ecur.
    + destruct (queue s) as [|front q] eqn:Eq.
      * (* the queue is empty: the client can push *)
        assert (Hp : exists s', push_step c s = Some s').
        { unfold push_step. rewrite Eq. pose proof Hv as (Hq & Hn & _). apply Nat.ltb_lt in Hn. cbn [length]. rewrite Hn.
          destruct (pushing s) as [[cur dd]|] eqn:Epu; [eexists; reflexivity|].
          destruct (pushes s) as [|x l] eqn:Eps; [exfalso|destruct (match compressor c with None => true | Some _ => _ end); eexists; reflexivity].
          unfold pending_chunks in J1. rewrite Epu, Eps in J1. cbn [app all_chunks flat_map] in J1.
          destruct Q; [|discriminate]. rewrite !app_nil_r in J1. specialize (J9 eq_refl). rewrite J1, all_client in J9.
          apply Forall_app in J9. destruct J9 as [_ J9]. inversion J9 as [|? ? [J _] _]. apply J. reflexivity. }
        destruct Hp as [s' Hp]. exists s'. apply step_push; auto.
      * assert (Hp : exists s', pull_step c s = Some s').
        { unfold pull_step. rewrite Epc, Ecur, Eq, J3.
          destruct (match front, compressor c with [], _ | _, None => Some front | _, Some u => u front end) as [[|]|]; eexists; reflexivity. }
        destruct Hp as [s' Hp]. exists s'. apply step_pull; auto.
    + eexists. apply (step_consume c s [b] r); auto. discriminate.
  - assert (Hp : exists s', pull_step c s = Some s').
    { unfold pull_step. rewrite Epc. destruct (done s) as [|? [|]]; eexists; reflexivity. }
    destruct Hp as [s' Hp]. exists s'. apply step_pull; auto.
Qed.

(** Every step decreases a measure, with respect to the lexicographic order on (bytes to be consumed, other work). *)
Definition dm (p : deserializer) : nat := match p with DRead => 2 | DEnd => 1 | DDone => 0 end.
Definition pushing_m (s : state) : nat := match pushing s with Some x => 2 * length (fst x) + 2 | None => 0 end.
Definition pushes_m (s : state) : nat := fold_right (fun x n => 2 * length (bytes x) + 3 + n) 0 (pushes s).
Definition work (s : state) : nat := pushing_m s + pushes_m s + length (queue s) + dm (pc s).
Definition remaining (c : config) (p : list push) (s : state) : nat := length (concat (map (fun x => plain c (bytes x)) p)) - length (consumed s).

Theorem terminates c p d s s' : valid c p -> steps c (initial (client c p d)) s -> step c s s' ->
  remaining c p s' < remaining c p s \/ remaining c p s' = remaining c p s /\ work s' < work s.
Proof.
  intros Hv H Hs.
  assert (H2 : steps c (initial (client c p d)) s') by (econstructor; eauto).
  pose proof (never_crashes c p d s' Hv H2) as Hc'.
  destruct (consumed_prefix c p d s' Hv H2) as [l' Hl'].
  destruct Hs as [s' Hc Hs|s' Hc Hs|l r Hc Hp Hcur Hl].
  - right. unfold push_step in Hs. pose proof Hv as (Hq & _ & _). unfold work, pushing_m, pushes_m, remaining.
    destruct (pushing s) as [[cur dd]|] eqn:E.
    + destruct (length (queue s) <? number_of_chunks c); [|discriminate]. injection Hs as <-. cbn [pushing pushes queue pc consumed]. split; [reflexivity|].
      rewrite app_length. cbn [length fst]. destruct (Nat.leb_spec (length cur) (queued_chunk_size c)); cbn [fst]; [lia|]. rewrite skipn_length. lia.
    + destruct (pushes s) as [|x l] eqn:Ep; [discriminate|].
      destruct (match compressor c with None => true | Some _ => _ end); injection Hs as <-; [|discriminate].
      cbn [pushing pushes queue pc consumed fst fold_right]. split; [reflexivity|]. lia.
  - right. unfold pull_step in Hs. unfold work, pushing_m, pushes_m, remaining. destruct (pc s) eqn:Epc; [| |discriminate].
    + destruct (current s); [|discriminate]. destruct (queue s) as [|front q]; [discriminate|].
      destruct (done s) as [|d0 ds]; [injection Hs as <-; discriminate|].
      destruct (match front, compressor c with [], _ | _, None => Some front | _, Some u => u front end) as [[|]|]; injection Hs as <-; try discriminate;
        cbn [pushing pushes queue pc consumed dm length]; (split; [reflexivity|]); lia.
    + destruct (done s) as [|d0 [|]]; injection Hs as <-; try discriminate. cbn [pushing pushes queue pc consumed dm length]. split; [reflexivity|]. lia.
  - left. unfold remaining. cbn [consumed] in *. rewrite <- Hl', !app_length.
    assert (0 < length l) by (destruct l; [congruence|cbn; lia]). lia.
Qed.

(** * Executable schedules, for the examples *)

(** [Some 0]: the client pushes; [Some (S n)]: the reader consumes n+1 bytes; [None]: the thread pulls. *)
Fixpoint schedule (c : config) (s : state) (l : list (option nat)) : option state :=
  match l with
  | [] => Some s
  | a :: l' =>
      if crashed s then None else
      match (match a with
             | Some O => push_step c s
             | Some (S n) =>
                 match pc s with
                 | DRead =>
                     if S n <=? length (current s) then
                       Some (State (pushing s) (pushes s) (queue s) (done s) (pc s) (skipn (S n) (current s)) (consumed s ++ firstn (S n) (current s)) (ran s) (crashed s))
                     else None
                 | _ => None
                 end
             | None => pull_step c s
             end) with
      | Some s' => schedule c s' l'
      | None => None
      end
  end.

Lemma schedule_steps c l : forall s0 s s', steps c s0 s -> schedule c s l = Some s' -> steps c s0 s'.
Proof.
  induction l as [|a l IH]; cbn [schedule]; intros s0 s s' H Hs; [congruence|].
  destruct (crashed s) eqn:Ec; [discriminate|].
  match type of Hs with match ?x with _ => _ end = _ => destruct x as [s1|] eqn:E; [|discriminate] end.
  eapply IH; [|eassumption]. econstructor; [eassumption|].
  destruct a as [[|n]|]; [apply step_push; auto| |apply step_pull; auto].
  destruct (pc s) eqn:Epc; try discriminate. destruct (Nat.leb_spec (S n) (length (current s))) as [Hle|]; [|discriminate].
  assert (E' : s1 = State (pushing s) (pushes s) (queue s) (done s) (pc s) (skipn (S n) (current s)) (consumed s ++ firstn (S n) (current s)) (ran s) (crashed s)) by congruence.
  rewrite E'. apply step_consume; auto.
  - symmetry. apply firstn_skipn.
  - intros Hf. apply (f_equal (@length _)) in Hf. rewrite firstn_length in Hf. cbn [length] in Hf. lia.
Qed.
