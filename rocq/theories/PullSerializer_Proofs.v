(** Proofs about PullSerializer_Model. *)
From Coq Require Import List Arith Bool Lia Permutation.
From Verif Require Import PullSerializer_Model.
Import ListNotations.

(** * Specification *)

(** The CHECK of line 81, a positive chunk size, and a compressor that does not compress something into nothing. *)
Definition valid (c : config) : Prop :=
  0 < chunk_size c /\ number_of_compression_chunks c + 2 < number_of_chunks c /\
  forall z, compressor c = Some z -> forall l, l <> [] -> z l <> [].

(** The contract of ZeroCopyOutputStream: the writer does not write beyond the buffer (which is always of size
    [chunk_size]) and calls BackUp if it does not fill it. *)
Definition conforming (c : config) (w : write) : Prop :=
  length (bytes w) <= chunk_size c /\ (back_up w = false -> length (bytes w) = chunk_size c).

Definition compressed (c : config) (l : list byte) : list byte :=
  match compressor c, l with Some z, _ :: _ => z l | _, _ => l end.

(** The nonempty arrays written, except that if the writer filled the last buffer entirely and did not call BackUp
    this buffer is ignored. *)
Definition nonempty (l : list byte) : list (list byte) := match l with [] => [] | _ => [l] end.
Fixpoint expected (l : list write) : list (list byte) :=
  match l with
  | [] => []
  | [w] => if back_up w then nonempty (bytes w) else []
  | w :: l' => nonempty (bytes w) ++ expected l'
  end.

(** * Invariant *)

Lemma expected_cons w l : l <> [] -> expected (w :: l) = nonempty (bytes w) ++ expected l.
Proof. destruct l; [congruence|reflexivity]. Qed.
Lemma expected_back_up w l : back_up w = true -> expected (w :: l) = nonempty (bytes w) ++ expected l.
Proof. intros H. destruct l; [|reflexivity]. cbn. rewrite H, app_nil_r. reflexivity. Qed.

Definition krest (k : continuation) (l : list write) : list (list byte) :=
  match k with KNext w => expected (w :: l) ++ [[]] | KBackUp => expected l ++ [[]] | KEnd => [] end.

Definition rest (s : state) : list (list byte) :=
  match pc s with
  | SNext => (match position s, script s with O, _ => [] | _, [] => [] | n, _ => [array (mem s) (stream_chunk s, n)] end) ++
             expected (script s) ++ [[]]
  | SFill w => expected (w :: script s) ++ [[]]
  | SPush b n k => array (mem s) (b, n) :: krest k (script s)
  | SCompress _ _ _ k | SQueue _ _ k => krest k (script s)
  | SEnd => [[]]
  | SDone => []
  end.

Definition inflight (c : config) (s : state) : list (list byte) :=
  match pc s with
  | SCompress b n _ _ => [compressed c (array (mem s) (b, n))]
  | SQueue b n _ => [array (mem s) (b, n)]
  | _ => []
  end.

Definition kconf (c : config) (k : continuation) : Prop := match k with KNext w => conforming c w | _ => True end.

Definition pcinv (c : config) (s : state) : Prop :=
  match pc s with
  | SNext => hd_error (free s) = Some (stream_chunk s) /\ stream_size s = chunk_size c /\
      (position s = 0 \/ position s = chunk_size c /\ length (mem s (stream_chunk s)) = chunk_size c)
  | SFill w => hd_error (free s) = Some (stream_chunk s) /\ stream_size s = chunk_size c /\ position s = 0 /\ conforming c w
  | SPush b n k => hd_error (free s) = Some b /\ length (array (mem s) (b, n)) = n /\ n <= chunk_size c /\ kconf c k
  | SCompress b n c' k => hd_error (free s) = Some c' /\ In b (free s) /\ b <> c' /\ length (array (mem s) (b, n)) = n /\ 0 < n /\ kconf c k /\
      exists z, compressor c = Some z
  | SQueue b n k => hd_error (free s) = Some b /\ length (array (mem s) (b, n)) = n /\ kconf c k
  | SEnd | SDone => True
  end.

Record inv (c : config) (w : list write) (s : state) : Prop := Inv {
  inv_crash : crashed s = false;
  inv_nodup : NoDup (free s ++ map fst (queue s));
  inv_total : length (free s) + length (queue s) = number_of_chunks c;
  inv_room : length (queue s) + number_of_compression_chunks c + 1 <= number_of_chunks c;
  inv_queue : exists q, map (array (mem s)) (queue s) = last (received s) [] :: q /\ sent s = received s ++ q;
  inv_plain : plain s ++ rest s = expected w ++ [[]];
  inv_sent : sent s ++ inflight c s = map (compressed c) (plain s);
  inv_conf : Forall (conforming c) (script s);
  inv_pc : pcinv c s }.

Lemma array_set_mem m b l q : ~ In b (map fst q) -> map (array (set_mem m b l)) q = map (array m) q.
Proof.
  intros H. apply map_ext_in. intros [x n] Hx. unfold array, set_mem. cbn [fst snd].
  destruct (Nat.eqb_spec x b); [|reflexivity]. subst. exfalso. apply H. apply in_map_iff. exists (b, n). auto.
Qed.

Lemma inv_initial c m w : valid c -> Forall (conforming c) w -> inv c w (initial c m w).
Proof.
  intros (Hc & Hn & Hz) Hw. constructor; cbn [initial crashed free queue map fst length received sent plain script pc]; auto.
  - rewrite <- seq_S. apply seq_NoDup.
  - rewrite seq_length. lia.
  - lia.
  - exists []. auto.
  - unfold pcinv. cbn [initial pc free stream_chunk stream_size position mem]. destruct (number_of_chunks c - 1) eqn:E; [lia|]. cbn. auto.
Qed.

Lemma nodup_app_not_in {A} (l1 l2 : list A) x : NoDup (l1 ++ l2) -> In x l1 -> ~ In x l2.
Proof.
  intros H H1 H2. apply in_split in H1. destruct H1 as (a & b & ->). rewrite <- app_assoc in H. cbn in H.
  apply NoDup_remove_2 in H. apply H. rewrite in_app_iff, in_app_iff. auto.
Qed.

Lemma hd_in {A} (l : list A) x : hd_error l = Some x -> In x l.
Proof. destruct l; cbn; [discriminate|]. intros [= ->]. auto. Qed.

Lemma expected_full w l : back_up w = false -> l = [] -> expected (w :: l) = [].
Proof. intros H ->. cbn. rewrite H. reflexivity. Qed.

Lemma nonempty_pos l : 0 < length l -> nonempty l = [l].
Proof. destruct l; cbn; [lia|reflexivity]. Qed.

Ltac proj := cbn [mem free queue stream_chunk stream_size position script pc crashed received plain sent set_pc crash].

Lemma compressed_nonnil c l z : compressor c = Some z -> l <> [] -> compressed c l = z l.
Proof. unfold compressed. intros -> H. destruct l; congruence. Qed.
Lemma compressed_nil c : compressed c [] = [].
Proof. unfold compressed. destruct (compressor c); reflexivity. Qed.
Lemma compressed_none c l : compressor c = None -> compressed c l = l.
Proof. unfold compressed. now intros ->. Qed.

Lemma inv_serializer c w s s' : valid c -> inv c w s -> serializer_step c s = Some s' -> inv c w s'.
Proof.
  intros (Hc & Hn & Hz) [I1 I2 I3 I4 I5 I6 I7 I8 I9] H.
  unfold serializer_step in H. unfold pcinv in I9. unfold rest in I6. unfold inflight in I7.
  destruct (pc s) as [|w0|b n k|b n c' k|b n k| |] eqn:Epc; try discriminate.
  - (* SNext *)
    destruct I9 as (P1 & P2 & P3). destruct (script s) as [|w0 l] eqn:Es.
    + injection H as <-. constructor; proj; auto.
      * unfold rest. proj. destruct (position s); exact I6.
      * rewrite Es. constructor.
      * exact I.
    + inversion I8 as [|? ? Hw0 Hl]; subst. revert H. proj. intros H.
      destruct (Nat.eqb_spec (position s) (stream_size s)) as [E|E]; injection H as <-.
      * destruct P3 as [P3|[P3 P4]]; [lia|]. constructor; proj; auto.
        -- unfold rest. proj. rewrite P3 in I6. destruct (chunk_size c) eqn:Ecs; [lia|].
           rewrite P2. exact I6.
        -- unfold pcinv. proj. unfold array. cbn [fst snd]. rewrite firstn_length. split; [assumption|]. split; [lia|]. split; [lia|]. exact Hw0.
      * destruct P3 as [P3|[P3 P4]]; [|lia]. constructor; proj; auto.
        -- unfold rest. proj. rewrite P3 in I6. exact I6.
        -- unfold pcinv. proj. auto.
  - (* SFill *)
    destruct I9 as (P1 & P2 & P3 & Q1 & Q2). rewrite P3, P2 in H. rewrite (proj2 (Nat.ltb_lt 0 (chunk_size c)) Hc) in H. cbn [negb plus firstn app] in H.
    pose proof (nodup_app_not_in _ _ _ I2 (hd_in _ _ P1)) as Hni.
    assert (Hset : set_mem (mem s) (stream_chunk s) (bytes w0) (stream_chunk s) = bytes w0) by (unfold set_mem; rewrite Nat.eqb_refl; reflexivity).
    destruct (back_up w0) eqn:Eb.
    + rewrite (expected_back_up w0) in I6 by assumption. revert H. proj. intros H.
      destruct (Nat.ltb_spec 0 (length (bytes w0))) as [Hlt|Hge]; injection H as <-.
      * constructor; proj; auto.
        -- rewrite array_set_mem by assumption. exact I5.
        -- unfold rest. proj. rewrite (nonempty_pos _ Hlt) in I6. unfold array. cbn [fst snd]. rewrite Hset, firstn_all. exact I6.
        -- unfold pcinv. proj. unfold array. cbn [fst snd]. rewrite Hset, firstn_all. cbn [kconf]. auto.
      * assert (Hnil : bytes w0 = []) by (destruct (bytes w0); cbn in Hge; [reflexivity|lia]).
        rewrite Hnil in *. constructor; proj; auto.
        -- rewrite array_set_mem by assumption. exact I5.
        -- unfold pcinv. proj. auto.
    + specialize (Q2 eq_refl). injection H as <-. constructor; proj; auto.
      * rewrite array_set_mem by assumption. exact I5.
      * unfold rest. proj. destruct (chunk_size c) as [|n0] eqn:Ecs; [lia|].
        destruct (script s) as [|w1 l] eqn:Es.
        -- rewrite (expected_full _ _ Eb eq_refl) in I6. exact I6.
        -- rewrite expected_cons in I6 by discriminate. rewrite nonempty_pos in I6 by lia.
           unfold array. cbn [fst snd]. rewrite Hset, <- Q2, firstn_all. exact I6.
      * unfold pcinv. proj. rewrite Hset. repeat split; auto.
  - (* SPush *)
    destruct I9 as (P1 & P2 & P3 & P4).
    apply Nat.leb_le in P3. rewrite P3 in H. cbn [negb] in H.
    assert (Hmap : map (compressed c) (plain s ++ [array (mem s) (b, n)]) = sent s ++ [compressed c (array (mem s) (b, n))])
      by (rewrite map_app, <- I7, app_nil_r; reflexivity).
    assert (Hdirect : compressor c = None \/ n = 0 -> inv c w (set_pc (SQueue b n k) (State (mem s) (free s) (queue s) (stream_chunk s) (stream_size s) (position s) (script s) (pc s) (crashed s) (received s) (plain s ++ [array (mem s) (b, n)]) (sent s)))).
    { intros Hor. constructor; proj; auto.
      - unfold rest. proj. rewrite <- app_assoc. exact I6.
      - unfold inflight. proj. rewrite Hmap. f_equal. f_equal. destruct Hor as [Hno|H0].
        + symmetry. apply compressed_none. assumption.
        + subst n. unfold array. cbn. symmetry. apply compressed_nil.
      - unfold pcinv. proj. auto. }
    destruct (compressor c) as [z|] eqn:Ez.
    2: { injection H as <-. rewrite Epc in Hdirect. apply Hdirect. auto. }
    destruct (Nat.ltb_spec 0 n) as [Hlt|Hge].
    2: { injection H as <-. rewrite Epc in Hdirect. apply Hdirect. right. lia. }
    revert H. proj. intros H. unfold number_of_compression_chunks in I4, Hn. rewrite Ez in I4, Hn.
    destruct (free s) as [|f0 [|f1 f]] eqn:Ef; [cbn in I3; lia|cbn in I3; lia|]. injection H as <-.
    cbn [hd_error] in P1. injection P1 as <-.
    constructor; proj; auto.
    + apply Permutation_NoDup with (2 := I2). cbn [app]. rewrite <- app_assoc. cbn [app].
      apply Permutation_trans with (f1 :: f0 :: f ++ map fst (queue s)); [constructor|]. constructor. apply Permutation_middle.
    + cbn [length] in *. rewrite app_length. cbn [length]. lia.
    + unfold number_of_compression_chunks. rewrite Ez. lia.
    + unfold rest. proj. rewrite <- app_assoc. exact I6.
    + unfold pcinv. proj. repeat split; auto.
      * right. apply in_or_app. right. left. reflexivity.
      * intros ->. cbn [app] in I2. inversion I2 as [|? ? Hx ?]. apply Hx. left. reflexivity.
      * eauto.
  - (* SCompress *)
    destruct I9 as (P1 & P2 & P3 & P4 & P5 & P6 & z & Ez). rewrite Ez in H. injection H as <-.
    pose proof (nodup_app_not_in _ _ _ I2 (hd_in _ _ P1)) as Hni.
    assert (Hset : forall l, set_mem (mem s) c' l c' = l) by (intros l; unfold set_mem; rewrite Nat.eqb_refl; reflexivity).
    constructor; proj; auto.
    + rewrite array_set_mem by assumption. exact I5.
    + unfold inflight. proj. rewrite <- I7. f_equal. f_equal.
      rewrite (compressed_nonnil c _ z Ez) by (intros E; rewrite E in P4; cbn in P4; lia).
      unfold array at 1. cbn [fst snd]. rewrite Hset, firstn_all. reflexivity.
    + unfold pcinv. proj. unfold array at 1. cbn [fst snd]. rewrite Hset, firstn_all. auto.
  - (* SQueue *)
    destruct I9 as (P1 & P2 & P3).
    destruct (Nat.ltb_spec (length (queue s)) (number_of_chunks c - number_of_compression_chunks c - 1)) as [Hlt|]; [|discriminate].
    assert (E2 : (2 + number_of_compression_chunks c <=? length (free s)) = true) by (apply Nat.leb_le; lia).
    rewrite E2 in H. cbn [negb] in H. apply Nat.leb_le in E2.
    destruct (free s) as [|f0 [|f1 f]] eqn:Ef; [cbn in E2; lia|cbn in E2; lia|].
    cbn [hd_error] in P1. injection P1 as ->. rewrite Nat.eqb_refl in H. cbn [negb] in H.
    assert (E3 : Nat.eqb (number_of_chunks c) (length (queue s ++ [(b, n)]) + length (f1 :: f)) = true)
      by (apply Nat.eqb_eq; rewrite app_length; cbn [length] in *; lia).
    rewrite E3 in H. cbn [negb] in H.
    assert (G : forall chunk size p pc', 
       rest (State (mem s) (f1 :: f) (queue s ++ [(b, n)]) chunk size p (script s) pc' (crashed s) (received s) (plain s) (sent s ++ [array (mem s) (b, n)])) = krest k (script s) ->
       inflight c (State (mem s) (f1 :: f) (queue s ++ [(b, n)]) chunk size p (script s) pc' (crashed s) (received s) (plain s) (sent s ++ [array (mem s) (b, n)])) = [] ->
       pcinv c (State (mem s) (f1 :: f) (queue s ++ [(b, n)]) chunk size p (script s) pc' (crashed s) (received s) (plain s) (sent s ++ [array (mem s) (b, n)])) ->
       inv c w (State (mem s) (f1 :: f) (queue s ++ [(b, n)]) chunk size p (script s) pc' (crashed s) (received s) (plain s) (sent s ++ [array (mem s) (b, n)]))).
    { intros chunk size p pc' G1 G2 G3. constructor; proj; auto.
      - rewrite map_app. cbn [map fst]. apply Permutation_NoDup with (2 := I2). rewrite app_assoc. cbn [app].
        apply Permutation_cons_append.
      - rewrite app_length. cbn [length] in *. lia.
      - rewrite app_length. cbn [length]. lia.
      - destruct I5 as (q & Q1 & Q2). exists (q ++ [array (mem s) (b, n)]). rewrite map_app, Q1, Q2, app_assoc. auto.
      - rewrite G1. exact I6.
      - rewrite G2, app_nil_r. exact I7. }
    destruct k as [w0| |]; injection H as <-; apply G.
    + reflexivity.
    + reflexivity.
    + unfold pcinv. proj. auto.
    + reflexivity.
    + reflexivity.
    + unfold pcinv. proj. auto.
    + reflexivity.
    + reflexivity.
    + exact I.
  - (* SEnd *)
    destruct (free s) as [|f0 f] eqn:Ef; [cbn in I3; lia|]. injection H as <-.
    constructor; proj; auto; try (rewrite Ef; assumption).
    unfold pcinv. proj. rewrite Ef. cbn. repeat split; auto. lia.
Qed.

Lemma last_app_one {A} (l : list A) x d : last (l ++ [x]) d = x.
Proof. induction l as [|a [|b l] IH]; auto. Qed.

Lemma inv_pull c w s s' : inv c w s -> Pull c s = Some s' -> inv c w s'.
Proof.
  intros [I1 I2 I3 I4 I5 I6 I7 I8 I9] H. unfold Pull in H.
  destruct (Nat.ltb_spec 1 (length (queue s))) as [Hlt|]; [|discriminate].
  destruct (queue s) as [|f [|r q]] eqn:Eq; [cbn in Hlt; lia|cbn in Hlt; lia|].
  assert (E : Nat.eqb (number_of_chunks c) (length (r :: q) + length (free s ++ [fst f])) = true)
    by (apply Nat.eqb_eq; rewrite app_length; cbn [length] in *; lia).
  rewrite E in H. cbn [negb] in H. injection H as <-.
  assert (Hhd : forall x, hd_error (free s) = Some x -> hd_error (free s ++ [fst f]) = Some x) by (destruct (free s); [discriminate|auto]).
  constructor; proj; auto.
  - apply Permutation_NoDup with (2 := I2). rewrite <- app_assoc. apply Permutation_refl.
  - rewrite app_length. cbn [length] in *. lia.
  - cbn [length] in *. lia.
  - destruct I5 as (q' & Q1 & Q2). cbn [map] in Q1.
    assert (q' = array (mem s) r :: map (array (mem s)) q) by congruence. subst q'.
    exists (map (array (mem s)) q). rewrite last_app_one, <- app_assoc. auto.
  - unfold pcinv in *. proj. destruct (pc s); try tauto; try (destruct I9 as (P1 & P2); split; [auto|]; tauto).
    destruct I9 as (P1 & P2 & P3). repeat split; try tauto; [auto|]. apply in_or_app. tauto.
Qed.

Lemma inv_steps c m w s : valid c -> Forall (conforming c) w -> steps c (initial c m w) s -> inv c w s.
Proof.
  intros Hv Hw H. remember (initial c m w) as s0. induction H; subst; [apply inv_initial; auto|].
  specialize (IHsteps eq_refl). destruct H0; [eapply inv_serializer|eapply inv_pull]; eauto.
Qed.

(** * Theorems *)

Theorem never_crashes c m w s : valid c -> Forall (conforming c) w -> steps c (initial c m w) s -> crashed s = false.
Proof. intros. eapply inv_crash, inv_steps; eauto. Qed.

(** What is received is at any time a prefix of what is expected. *)
Theorem received_prefix c m w s : valid c -> Forall (conforming c) w -> steps c (initial c m w) s ->
  exists l, received s ++ l = map (compressed c) (expected w) ++ [[]].
Proof.
  intros Hv Hw H. pose proof (inv_steps c m w s Hv Hw H) as [I1 I2 I3 I4 I5 I6 I7 I8 I9].
  destruct I5 as (q & Q1 & Q2). exists (q ++ inflight c s ++ map (compressed c) (rest s)).
  rewrite app_assoc, <- Q2, app_assoc, I7, <- map_app, I6, map_app. cbn [map]. rewrite compressed_nil. reflexivity.
Qed.

Lemma expected_nonempty : forall w, ~ In [] (expected w).
Proof.
  induction w as [|a [|b l] IH]; [auto| |].
  - cbn. destruct (back_up a); [|auto]. destruct (bytes a); cbn; [auto|]. intros [?|[]]. discriminate.
  - rewrite expected_cons by discriminate. rewrite in_app_iff. intros [H|H]; [|auto].
    destruct (bytes a); cbn in H; [auto|]. destruct H as [?|[]]. discriminate.
Qed.

Lemma compressed_nonempty c l : valid c -> l <> [] -> compressed c l <> [].
Proof.
  intros (_ & _ & Hz) Hl. unfold compressed. destruct (compressor c) as [z|]; [|assumption].
  destruct l; [congruence|]. apply Hz; auto.
Qed.

(** Once an empty array has been received, everything has. *)
Theorem received_all c m w s : valid c -> Forall (conforming c) w -> steps c (initial c m w) s ->
  In [] (received s) -> received s = map (compressed c) (expected w) ++ [[]].
Proof.
  intros Hv Hw H Hin. destruct (received_prefix c m w s Hv Hw H) as [l Hl].
  destruct l as [|x l] using rev_ind; [rewrite app_nil_r in Hl; assumption|]. clear IHl.
  rewrite app_assoc in Hl. apply app_inj_tail in Hl. destruct Hl as [Hl _].
  exfalso. assert (In [] (map (compressed c) (expected w))) as Hm by (rewrite <- Hl; apply in_or_app; auto).
  apply in_map_iff in Hm. destruct Hm as (y & Hy1 & Hy2).
  apply (compressed_nonempty c y Hv); [|assumption]. intros ->. apply (expected_nonempty w). assumption.
Qed.

(** The array that the client obtained last is intact. *)
Theorem held_array_intact c m w s l x : valid c -> Forall (conforming c) w -> steps c (initial c m w) s ->
  received s = l ++ [x] -> exists a q, queue s = a :: q /\ array (mem s) a = x.
Proof.
  intros Hv Hw H Hr. pose proof (inv_steps c m w s Hv Hw H) as [I1 I2 I3 I4 I5 I6 I7 I8 I9].
  destruct I5 as (q & Q1 & Q2). rewrite Hr, last_app_one in Q1. destruct (queue s) as [|a q']; [discriminate|].
  exists a, q'. cbn [map] in Q1. split; [reflexivity|congruence].
Qed.

Theorem no_deadlock c m w s : valid c -> Forall (conforming c) w -> steps c (initial c m w) s ->
  ~ In [] (received s) -> exists s', step c s s'.
Proof.
  intros Hv Hw H Hr. pose proof (inv_steps c m w s Hv Hw H) as [I1 I2 I3 I4 I5 I6 I7 I8 I9].
  destruct (serializer_step c s) as [s'|] eqn:E; [exists s'; apply step_serializer; auto|].
  assert (Hq : 1 < length (queue s)).
  { unfold serializer_step in E. unfold rest in I6. unfold inflight in I7. unfold pcinv in I9. destruct (pc s) as [|w0|b n k|b n c' k|b n k| |].
    - exfalso. destruct (script s); [discriminate|]. revert E. proj. destruct (Nat.eqb (position s) (stream_size s)); discriminate.
    - exfalso. destruct (negb (position s <? stream_size s)); [discriminate|]. destruct (back_up w0); [|discriminate].
      revert E. proj. destruct (0 <? position s + length (bytes w0)); discriminate.
    - exfalso. destruct (negb (n <=? chunk_size c)); [discriminate|]. destruct (compressor c); [|discriminate].
      destruct (0 <? n); [|discriminate]. revert E. proj. destruct (free s) as [|? [|]]; discriminate.
    - exfalso. destruct I9 as (_ & _ & _ & _ & _ & _ & z & Ez). rewrite Ez in E. discriminate.
    - destruct (Nat.ltb_spec (length (queue s)) (number_of_chunks c - number_of_compression_chunks c - 1)) as [Hlt|Hge]; [|destruct Hv; lia].
      exfalso. destruct (negb (2 + number_of_compression_chunks c <=? length (free s))); [discriminate|].
      destruct (free s) as [|f0 [|f1 f]]; [discriminate|discriminate|].
      destruct (negb (Nat.eqb f0 b)); [discriminate|]. destruct (negb _); [discriminate|]. destruct k; discriminate.
    - exfalso. destruct (free s); discriminate.
    - (* The serializer is done but the client has not received the final sentinel. *)
      rewrite app_nil_r in I6, I7. destruct I5 as (q & Q1 & Q2).
      assert (Hin : In [] (sent s)) by (rewrite I7, I6, map_app; cbn [map]; rewrite compressed_nil; apply in_or_app; right; left; reflexivity).
      rewrite Q2, in_app_iff in Hin. destruct Hin as [?|Hin]; [contradiction|].
      rewrite <- (map_length (array (mem s))), Q1. destruct q; [destruct Hin|cbn; lia]. }
  apply Nat.ltb_lt in Hq.
  assert (Hp : exists s', Pull c s = Some s').
  { unfold Pull. rewrite Hq. destruct (queue s) as [|f [|r q]]; try (eexists; reflexivity). destruct (negb _); eexists; reflexivity. }
  destruct Hp as [s' Hp]. exists s'. apply step_pull; auto.
Qed.

(** Every step decreases a measure. *)
Definition km (k : continuation) : nat := match k with KNext _ => 8 | KBackUp => 0 | KEnd => 0 end.
Definition pm (p : serializer) : nat := match p with
  | SNext => 9 | SFill w => 16 | SPush _ _ k => match k with KEnd => 6 | KBackUp => 15 | KNext _ => 22 end
  | SCompress _ _ _ k => match k with KEnd => 5 | KBackUp => 14 | KNext _ => 21 end
  | SQueue _ _ k => match k with KEnd => 4 | KBackUp => 13 | KNext _ => 20 end | SEnd => 7 | SDone => 0 end.
Definition measure (s : state) : nat := 20 * length (script s) + pm (pc s) + 2 * length (queue s).

Theorem terminates c m w s s' : valid c -> Forall (conforming c) w -> steps c (initial c m w) s -> step c s s' -> measure s' < measure s.
Proof.
  intros Hv Hw H Hs.
  assert (H' : inv c w s') by (eapply inv_steps; eauto; econstructor; eauto).
  pose proof (inv_crash _ _ _ H') as Hc'. clear H'.
  unfold measure. destruct Hs as [s' Hc Hs|s' Hc Hr Hs].
  - unfold serializer_step in Hs. destruct (pc s) as [|w0|b n k|b n c' k|b n k| |]; try discriminate.
    + destruct (script s) as [|w0 l] eqn:Es; [injection Hs as <-; proj; rewrite Es; cbn [pm length]; lia|].
      revert Hs. proj. destruct (Nat.eqb (position s) (stream_size s)); intros [= <-]; proj; cbn [pm length]; lia.
    + destruct (negb (position s <? stream_size s)); [injection Hs as <-; discriminate|].
      destruct (back_up w0); [|injection Hs as <-; proj; cbn [pm]; lia].
      revert Hs. proj. destruct (0 <? position s + length (bytes w0)); intros [= <-]; proj; cbn [pm]; lia.
    + revert Hs. proj. destruct (negb (n <=? chunk_size c)); [intros [= <-]; discriminate|].
      destruct (compressor c); [|intros [= <-]; proj; destruct k; cbn [pm]; lia].
      destruct (0 <? n); [|intros [= <-]; proj; destruct k; cbn [pm]; lia].
      destruct (free s) as [|f0 [|f1 f]]; intros [= <-]; try discriminate; proj; destruct k; cbn [pm]; lia.
    + destruct (compressor c); [|discriminate]. injection Hs as <-. proj. destruct k; cbn [pm]; lia.
    + destruct (length (queue s) <? _); [|discriminate]. destruct (negb _); [injection Hs as <-; discriminate|].
      destruct (free s) as [|f0 [|f1 f]]; [injection Hs as <-; discriminate|injection Hs as <-; discriminate|].
      destruct (negb _); [injection Hs as <-; discriminate|].
      destruct (negb _); [injection Hs as <-; discriminate|].
      destruct k; injection Hs as <-; proj; rewrite app_length; cbn [pm length]; lia.
    + destruct (free s); injection Hs as <-; [discriminate|]. proj. cbn [pm]. lia.
  - unfold Pull in Hs. destruct (1 <? length (queue s)); [|discriminate].
    destruct (queue s) as [|f [|r q]]; [injection Hs as <-; discriminate|injection Hs as <-; discriminate|].
    destruct (negb _); injection Hs as <-; [discriminate|]. proj. cbn [length]. lia.
Qed.

(** The bytes, for a writer that ends with a call to BackUp. *)
Lemma concat_expected : forall w, (forall a, last w a = a \/ back_up (last w a) = true) -> concat (expected w) = concat (map bytes w).
Proof.
  assert (Hn : forall l, concat (nonempty l) = l) by (destruct l; cbn; rewrite ?app_nil_r; reflexivity).
  induction w as [|a [|b l] IH]; intros H; [reflexivity| |].
  - specialize (H (Write (bytes a) (negb (back_up a)))). cbn [last] in H. destruct H as [H|H].
    + exfalso. destruct a as [x y]. cbn in H. injection H as H. now destruct y.
    + cbn [expected map concat]. rewrite H, Hn, app_nil_r. reflexivity.
  - rewrite expected_cons by discriminate. rewrite concat_app, Hn, IH by exact H. reflexivity.
Qed.

(** * Schedules: [true] for a step of the serializer, [false] for a call to Pull. *)
Definition is_nil (l : list byte) : bool := match l with [] => true | _ => false end.
Fixpoint schedule (c : config) (s : state) (l : list bool) : option state :=
  match l with
  | [] => Some s
  | b :: l' =>
      if crashed s then None
      else match (if b then serializer_step c s else if existsb is_nil (received s) then None else Pull c s) with
           | Some s' => schedule c s' l'
           | None => None
           end
  end.

Lemma schedule_steps c l : forall s0 s s', steps c s0 s -> schedule c s l = Some s' -> steps c s0 s'.
Proof.
  induction l as [|b l IH]; cbn [schedule]; intros s0 s s' H Hs; [congruence|].
  destruct (crashed s) eqn:Ec; [discriminate|].
  destruct (if b then serializer_step c s else if existsb is_nil (received s) then None else Pull c s) as [s1|] eqn:E; [|discriminate].
  eapply IH; [|eassumption]. econstructor; [eassumption|]. destruct b; [apply step_serializer; auto|].
  destruct (existsb is_nil (received s)) eqn:En; [discriminate|]. apply step_pull; auto.
  intros Hin. assert (existsb is_nil (received s) = true) by (apply existsb_exists; exists []; auto). congruence.
Qed.
