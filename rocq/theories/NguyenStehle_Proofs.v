(* The reduction of Nguyễn and Stehlé: the integer matrices, whatever the
   floating-point arithmetic. *)
From Coq Require Import ZArith QArith Qcanon List Bool Arith Lia.
From Verif Require Import Matrix_Model Matrix_Spec Lattice_Model Lattice_Spec.
From Verif Require Import Lattice_Proofs2.
From Verif Require Import NguyenStehle_Model NguyenStehle_Spec.
Import ListNotations.
Local Open Scope nat_scope.

(* ------------------------------------------------------------- storage *)

Lemma nth_lset : forall {T} (d : T) l n x m,
  nth m (lset d l n x) d = if m =? n then x else nth m l d.
Proof.
  intros T d l n; revert l; induction n as [|n IH]; intros [|h t] x [|m]; cbn; try reflexivity.
  - destruct m; reflexivity.
  - rewrite IH. destruct (m =? n); [reflexivity|]. destruct m; reflexivity.
  - apply IH.
Qed.

Lemma gget_gset : forall {T} (d : T) g i j x a c,
  gget d (gset d g i j x) a c
  = if (a =? i) && (c =? j) then x else gget d g a c.
Proof.
  intros T d g i j x a c. unfold gget, gset.
  rewrite (nth_lset (@nil T)). destruct (Nat.eqb_spec a i) as [->|N]; [|reflexivity].
  rewrite nth_lset. destruct (c =? j); reflexivity.
Qed.

Lemma loop_inv : forall {A} (P : nat -> A -> Prop) a count body s,
  P a s ->
  (forall i s, a <= i < a + count -> P i s -> P (S i) (body i s)) ->
  P (a + count) (loop a count body s).
Proof.
  intros A P a count; revert a; induction count as [|c IH]; intros a body s H0 H.
  - rewrite Nat.add_0_r. exact H0.
  - cbn [loop]. replace (a + S c) with (S a + c) by lia. apply IH.
    + apply H; [lia|exact H0].
    + intros i s' Hi. apply H. lia.
Qed.

Lemma loop0_inv : forall {A} (P : nat -> A -> Prop) count body s,
  P 0 s -> (forall i s, i < count -> P i s -> P (S i) (body i s)) ->
  P count (loop 0 count body s).
Proof. intros A P count body s H0 H. apply (loop_inv P 0); [exact H0|]. intros; apply H; [lia|assumption]. Qed.

Lemma loop_down_inv : forall {A} (P : nat -> A -> Prop) count body s,
  P count s -> (forall i s, i < count -> P (S i) s -> P i (body i s)) ->
  P 0 (loop_down count body s).
Proof.
  intros A P count; induction count as [|c IH]; intros body s H0 H; [exact H0|].
  cbn [loop_down]. apply IH; [apply H; [lia|exact H0]|]. intros; apply H; [lia|assumption].
Qed.

Lemma zof_zget : forall b i j, zget b i j = zof b i j.
Proof. reflexivity. Qed.
Lemma zof_zset : forall g i j x a c,
  zof (zset g i j x) a c = if (a =? i) && (c =? j) then x else zof g a c.
Proof. intros. apply (gget_gset 0%Z). Qed.

(* ---------------------------------------------------------------- sums *)

Lemma zsum_plus : forall n f g,
  zsum n (fun i => f i + g i)%Z = (zsum n f + zsum n g)%Z.
Proof. induction n as [|n IH]; intros f g; cbn [zsum]; [reflexivity|]. rewrite IH. ring. Qed.
Lemma zsum_minus : forall n f g,
  zsum n (fun i => f i - g i)%Z = (zsum n f - zsum n g)%Z.
Proof. induction n as [|n IH]; intros f g; cbn [zsum]; [reflexivity|]. rewrite IH. ring. Qed.
Lemma zsum_scale : forall n c f, zsum n (fun i => c * f i)%Z = (c * zsum n f)%Z.
Proof. induction n as [|n IH]; intros c f; cbn [zsum]; [ring|]. rewrite IH. ring. Qed.
Lemma zsum_0 : forall n f, (forall i, i < n -> f i = 0%Z) -> zsum n f = 0%Z.
Proof.
  induction n as [|n IH]; intros f H; cbn [zsum]; [reflexivity|].
  rewrite IH, H by (intros; try apply H; lia). reflexivity.
Qed.
Lemma zsum_exchange : forall n m f,
  zsum n (fun i => zsum m (fun j => f i j)) = zsum m (fun j => zsum n (fun i => f i j)).
Proof.
  induction n as [|n IH]; intros m f; cbn [zsum].
  - symmetry. apply zsum_0. reflexivity.
  - rewrite IH, <- zsum_plus. reflexivity.
Qed.
Lemma zsum_symmetric : forall n f,
  (forall i j, i < n -> j < n -> f i j = f j i) ->
  zsum n (fun i => zsum n (fun j => f i j))
  = (zsum n (fun j => f j j) + 2 * zsum n (fun j => zsum j (fun i => f i j)))%Z.
Proof.
  induction n as [|n IH]; intros f H; [reflexivity|]. cbn [zsum].
  rewrite zsum_plus, IH by (intros; apply H; lia).
  rewrite (zsum_ext n (fun j => f n j) (fun i => f i n)) by (intros; apply H; lia). ring.
Qed.

Lemma loop_zsum : forall n (f : nat -> Z) s,
  loop 0 n (fun j s => (s + f j)%Z) s = (s + zsum n f)%Z.
Proof.
  intros n f s. refine (loop0_inv (fun k r => r = (s + zsum k f)%Z) _ _ _ _ _); cbv beta; cbn [zsum].
  - ring.
  - intros i r _ ->. ring.
Qed.

Lemma zdot_gram : forall n b i j, zdot n b i j = gram n (zof b) i j.
Proof.
  intros n b i j. unfold zdot. rewrite (loop_zsum n (fun k => (zget b k i * zget b k j)%Z)).
  reflexivity.
Qed.

Lemma gram_sym : forall n v i j, gram n v i j = gram n v j i.
Proof. intros. apply zsum_ext. intros; ring. Qed.

(* ---------------------------------------------------------------- Gram *)

Lemma Gram_spec : forall n d L junk, is_gram n d L (Gram n d L junk).
Proof.
  intros n d L junk. unfold Gram.
  refine (loop0_inv (fun k g => forall i j, i < k -> j < k -> zof g i j = gram n (zof L) i j) _ _ _ _ _); cbv beta.
  - intros; lia.
  - intros i g Hi H.
    pose (P := fun k g' =>
      (forall a c, a < i -> c < i -> zof g' a c = gram n (zof L) a c) /\
      (forall c, c < k -> zof g' i c = gram n (zof L) i c /\ zof g' c i = gram n (zof L) c i)).
    assert (E : P (S i) (loop 0 (S i) (fun j g =>
      let bibj := zdot n L i j in zset (zset g i j bibj) j i bibj) g)).
    { refine (loop0_inv P _ _ _ _ _); cbv beta.
      - split; [exact H|intros; lia].
      - intros j g' Hj [P1 P2]. cbv zeta. rewrite zdot_gram. split.
        + intros a c Ha Hc. rewrite !zof_zset.
          destruct (Nat.eqb_spec a i); [lia|]. destruct (Nat.eqb_spec c i); [lia|].
          rewrite andb_false_r. apply P1; assumption.
        + intros c Hc. rewrite !zof_zset.
          destruct (Nat.eq_dec c j) as [->|N].
          * rewrite !Nat.eqb_refl. cbn [andb].
            split; [|apply gram_sym].
            destruct ((i =? j) && (j =? i)); reflexivity.
          * destruct (Nat.eqb_spec c j); [contradiction|].
            destruct (Nat.eqb_spec c i); [lia|]. rewrite !andb_false_r. cbn [andb].
            apply P2. lia. }
    destruct E as [P1 P2]. intros a c Ha Hc.
    destruct (Nat.eq_dec a i) as [->|Na]; [apply P2; lia|].
    destruct (Nat.eq_dec c i) as [->|Nc]; [apply P2; lia|]. apply P1; lia.
Qed.

Lemma loop_none : forall {A} a count (body : nat -> option A -> option A),
  (forall i, body i None = None) -> loop a count body None = None.
Proof.
  intros A a count body H; revert a; induction count as [|c IH]; intros a; cbn [loop];
    [reflexivity|]. rewrite H. apply IH.
Qed.

Lemma Gram_checked_spec : forall size n d L junk,
  Gram_checked size n d L junk
  = if d <=? size then Some (Gram n d L junk) else None.
Proof.
  intros size n d L junk. unfold Gram_checked, Gram.
  match goal with |- loop 0 d ?b _ = _ => set (body := b) end.
  match goal with |- context [Some (loop 0 d ?b _)] => set (body' := b) end.
  assert (B : forall i g, body i (Some g) = if i <? size then Some (body' i g) else None).
  { intros i g. unfold body, body'.
    destruct (Nat.ltb_spec i size) as [Hi|Hi].
    - pose (P := fun k (x : option (grid Z)) =>
        x = Some (loop 0 k (fun j g =>
              let bibj := zdot n L i j in zset (zset g i j bibj) j i bibj) g)).
      refine (loop0_inv P _ _ _ _ _); cbv beta; unfold P; [reflexivity|].
      intros j x Hj IH. rewrite IH. cbv zeta. unfold zset_checked.
      destruct (Nat.ltb_spec i size); [|lia]. destruct (Nat.ltb_spec j size); [|lia].
      cbn [andb]. f_equal. clear. generalize g. clear g.
      assert (E : forall A (body : nat -> A -> A) k a g,
        loop a (S k) body g = body (a + k) (loop a k body g)).
      { intros A b k; induction k as [|k IHk]; intros a g; cbn [loop].
        - rewrite Nat.add_0_r. reflexivity.
        - cbn [loop] in IHk. rewrite IHk. f_equal. lia. }
      intros g. rewrite E. reflexivity.
    - cbn [loop].
      assert (C : zset_checked size g i 0 (zdot n L i 0) = None).
      { unfold zset_checked. destruct (Nat.ltb_spec i size); [lia|reflexivity]. }
      rewrite C. apply loop_none. reflexivity. }
  assert (N : forall i, body i None = None).
  { intros i. unfold body. apply loop_none. reflexivity. }
  clearbody body body'.
  assert (K : forall count a g, loop a count body (Some g)
    = if (a + count <=? size) || (count =? 0) then Some (loop a count body' g) else None).
  { induction count as [|c IH]; intros a g; cbn [loop].
    - rewrite orb_true_r. reflexivity.
    - rewrite B. destruct (Nat.ltb_spec a size) as [Ha|Ha].
      + rewrite IH. cbn [Nat.eqb]. rewrite orb_false_r.
        replace (S a + c) with (a + S c) by lia.
        destruct (Nat.leb_spec (a + S c) size); [reflexivity|].
        destruct (Nat.eqb_spec c 0); [lia|reflexivity].
      + rewrite loop_none by assumption.
        destruct (Nat.leb_spec (a + S c) size); [lia|reflexivity]. }
  rewrite K. cbn [Nat.add]. destruct (Nat.leb_spec d size); [reflexivity|].
  destruct (Nat.eqb_spec d 0); [lia|reflexivity].
Qed.

(* -------------------------------------------------------------- Insert *)

Lemma rotate_row_spec : forall from to i g a c, to < from ->
  zof (rotate_row from to i g) a c
  = if a =? i then zof g i (inserted from to c) else zof g a c.
Proof.
  intros from to i g a c H. unfold rotate_row.
  set (g' := loop_down _ _ _).
  assert (E : forall a c, zof g' a c
    = if a =? i then
        (if (to <? c) && (c <=? from) then zof g i (c - 1) else zof g i c)
      else zof g a c).
  { pose (P := fun cnt (g' : grid Z) => forall a c, zof g' a c
      = if a =? i then
          (if (to + cnt <? c) && (c <=? from) then zof g i (c - 1) else zof g i c)
        else zof g a c).
    cut (P 0 g').
    { intros HP a' c'. rewrite (HP a' c'), Nat.add_0_r. reflexivity. }
    refine (loop_down_inv P _ _ _ _ _); cbv beta; unfold P.
    - intros a' c'. replace (to + (from - to)) with from by lia.
      destruct (Nat.eqb_spec a' i) as [->|]; [|reflexivity].
      destruct (Nat.ltb_spec from c'); [|reflexivity].
      destruct (Nat.leb_spec c' from); [lia|reflexivity].
    - intros j g1 Hj IH a' c'. rewrite zof_zset, zof_zget, !IH, Nat.eqb_refl.
      destruct (Nat.eqb_spec a' i) as [->|]; [|reflexivity]. cbn [andb].
      destruct (Nat.eqb_spec c' (to + S j)) as [->|Nc].
      + destruct (Nat.ltb_spec (to + S j) (to + j)); [lia|].
        destruct (Nat.ltb_spec (to + j) (to + S j)); [|lia].
        destruct (Nat.leb_spec (to + S j) from); [|lia]. cbn [andb].
        f_equal. lia.
      + destruct (Nat.ltb_spec (to + S j) c'); destruct (Nat.ltb_spec (to + j) c');
          try lia; reflexivity. }
  rewrite zof_zset, E, zof_zget. unfold inserted.
  destruct (Nat.eqb_spec a i) as [->|]; [|reflexivity]. cbn [andb].
  destruct (Nat.eqb_spec c to) as [->|Nc].
  - destruct (Nat.ltb_spec to to); [lia|reflexivity].
  - destruct (Nat.ltb_spec c to); destruct (Nat.ltb_spec to c); try lia; cbn [andb].
    + reflexivity.
    + destruct (Nat.leb_spec c from); reflexivity.
Qed.

Lemma rotate_column_spec : forall from to j g a c, to < from ->
  zof (rotate_column from to j g) a c
  = if c =? j then zof g (inserted from to a) j else zof g a c.
Proof.
  intros from to j g a c H. unfold rotate_column.
  set (g' := loop_down _ _ _).
  assert (E : forall a c, zof g' a c
    = if c =? j then
        (if (to <? a) && (a <=? from) then zof g (a - 1) j else zof g a j)
      else zof g a c).
  { pose (P := fun cnt (g' : grid Z) => forall a c, zof g' a c
      = if c =? j then
          (if (to + cnt <? a) && (a <=? from) then zof g (a - 1) j else zof g a j)
        else zof g a c).
    cut (P 0 g').
    { intros HP a' c'. rewrite (HP a' c'), Nat.add_0_r. reflexivity. }
    refine (loop_down_inv P _ _ _ _ _); cbv beta; unfold P.
    - intros a' c'. replace (to + (from - to)) with from by lia.
      destruct (Nat.eqb_spec c' j) as [->|]; [|reflexivity].
      destruct (Nat.ltb_spec from a'); [|reflexivity].
      destruct (Nat.leb_spec a' from); [lia|reflexivity].
    - intros i g1 Hj IH a' c'. rewrite zof_zset, zof_zget, !IH, Nat.eqb_refl.
      destruct (Nat.eqb_spec c' j) as [->|]; [|rewrite andb_false_r; reflexivity].
      rewrite andb_true_r.
      destruct (Nat.eqb_spec a' (to + S i)) as [->|Nc].
      + destruct (Nat.ltb_spec (to + S i) (to + i)); [lia|].
        destruct (Nat.ltb_spec (to + i) (to + S i)); [|lia].
        destruct (Nat.leb_spec (to + S i) from); [|lia]. cbn [andb].
        f_equal. lia.
      + destruct (Nat.ltb_spec (to + S i) a'); destruct (Nat.ltb_spec (to + i) a');
          try lia; reflexivity. }
  rewrite zof_zset, E, zof_zget. unfold inserted.
  destruct (Nat.eqb_spec c j) as [->|]; [|rewrite andb_false_r; reflexivity].
  rewrite andb_true_r.
  destruct (Nat.eqb_spec a to) as [->|Nc].
  - destruct (Nat.ltb_spec to to); [lia|reflexivity].
  - destruct (Nat.ltb_spec a to); destruct (Nat.ltb_spec to a); try lia; cbn [andb].
    + reflexivity.
    + destruct (Nat.leb_spec a from); reflexivity.
Qed.

Lemma rotate_rows_spec : forall from to n g a c, to < from ->
  zof (loop 0 n (rotate_row from to) g) a c
  = if a <? n then zof g a (inserted from to c) else zof g a c.
Proof.
  intros from to n g a c H. revert a c.
  refine (loop0_inv (fun k g' => forall a c, zof g' a c
    = if a <? k then zof g a (inserted from to c) else zof g a c) _ _ _ _ _); cbv beta.
  - reflexivity.
  - intros i g' Hi IH a c. rewrite rotate_row_spec by assumption. rewrite !IH.
    destruct (Nat.eqb_spec a i) as [->|N].
    + destruct (Nat.ltb_spec i i); [lia|]. destruct (Nat.ltb_spec i (S i)); [reflexivity|lia].
    + destruct (Nat.ltb_spec a i); destruct (Nat.ltb_spec a (S i)); try lia; reflexivity.
Qed.

Lemma rotate_columns_spec : forall from to n g a c, to < from ->
  zof (loop 0 n (rotate_column from to) g) a c
  = if c <? n then zof g (inserted from to a) c else zof g a c.
Proof.
  intros from to n g a c H. revert a c.
  refine (loop0_inv (fun k g' => forall a c, zof g' a c
    = if c <? k then zof g (inserted from to a) c else zof g a c) _ _ _ _ _); cbv beta.
  - reflexivity.
  - intros i g' Hi IH a c. rewrite rotate_column_spec by assumption. rewrite !IH.
    destruct (Nat.eqb_spec c i) as [->|N].
    + destruct (Nat.ltb_spec i i); [lia|]. destruct (Nat.ltb_spec i (S i)); [reflexivity|lia].
    + destruct (Nat.ltb_spec c i); destruct (Nat.ltb_spec c (S i)); try lia; reflexivity.
Qed.

Lemma inserted_lt : forall from to c d, to < from -> from < d -> c < d ->
  inserted from to c < d.
Proof.
  intros from to c d H1 H2 H3. unfold inserted.
  destruct (c <? to); [lia|]. destruct (c =? to); [lia|]. destruct (c <=? from); lia.
Qed.

Lemma same_lattice_ext : forall m n v v',
  (forall i j, i < m -> j < n -> v i j = v' i j) -> same_lattice m n v v'.
Proof.
  intros m n v v' H w. split; intros [z Hz]; exists z; intros i Hi; rewrite Hz by assumption;
    apply zsum_ext; intros j Hj; rewrite H by assumption; reflexivity.
Qed.

(* A relation that is established by operations on columns. *)
Definition closed (m : nat) (R : zmatrix -> zmatrix -> Prop) :=
  (forall v v', (forall i j, i < m -> v i j = v' i j) -> R v v') /\
  (forall u v w, R u v -> R v w -> R u w).

Lemma inserted_rel : forall m n R from to, closed m R ->
  (forall v a, S a < n -> R v (swap_columns v a (S a))) ->
  to <= from -> from < n ->
  forall v, R v (fun i c => v i (inserted from to c)).
Proof.
  intros m n R from to [CE CT] CS H Hn v. remember (from - to) as e eqn:E. revert to H E.
  induction e as [|e IH]; intros to H E.
  - assert (to = from) by lia. subst to. apply CE. intros i j _.
    unfold inserted. destruct (Nat.ltb_spec j from); [reflexivity|].
    destruct (Nat.eqb_spec j from) as [->|]; [reflexivity|].
    destruct (Nat.leb_spec j from); [lia|reflexivity].
  - eapply CT; [apply (IH (S to)); lia|].
    eapply CT; [apply (CS _ to); lia|].
    apply CE. intros i j _. unfold swap_columns, inserted.
    destruct (Nat.eqb_spec j to) as [->|N1].
    + destruct (Nat.ltb_spec (S to) (S to)); [lia|]. rewrite Nat.eqb_refl.
      destruct (Nat.ltb_spec to to); [lia|reflexivity].
    + destruct (Nat.eqb_spec j (S to)) as [->|N2].
      * destruct (Nat.ltb_spec to (S to)); [|lia].
        destruct (Nat.ltb_spec (S to) to); [lia|].
        destruct (Nat.leb_spec (S to) from); [|lia]. f_equal. lia.
      * destruct (Nat.ltb_spec j (S to)); destruct (Nat.ltb_spec j to); try lia; reflexivity.
Qed.

Lemma same_lattice_closed : forall m n, closed m (same_lattice m n).
Proof.
  intros m n. split.
  - intros v v' H. apply same_lattice_ext. intros; apply H; assumption.
  - apply same_lattice_trans.
Qed.

Lemma Insert_spec : forall from to n d b G b' G',
  to < from -> from < d -> Insert from to n d b G = (b', G') ->
  (forall i c, i < n -> zof b' i c = zof b i (inserted from to c)) /\
  (is_gram n d b G -> is_gram n d b' G') /\
  same_lattice n d (zof b) (zof b').
Proof.
  intros from to n d b G b' G' H1 H2 E. unfold Insert in E. injection E as Eb EG.
  assert (B : forall i c, i < n -> zof b' i c = zof b i (inserted from to c)).
  { intros i c Hi. rewrite <- Eb, rotate_rows_spec by assumption.
    destruct (Nat.ltb_spec i n); [reflexivity|lia]. }
  split; [exact B|]. split.
  - intros HG i j Hi Hj. rewrite <- EG, rotate_columns_spec, !rotate_rows_spec by assumption.
    pose proof (inserted_lt from to i d H1 H2 Hi) as Ii.
    pose proof (inserted_lt from to j d H1 H2 Hj) as Ij.
    destruct (Nat.ltb_spec j d); [|lia]. destruct (Nat.ltb_spec (inserted from to i) d); [|lia].
    rewrite HG by assumption. apply zsum_ext. intros r Hr. rewrite !B by assumption. reflexivity.
  - eapply same_lattice_trans.
    { apply (inserted_rel n d (same_lattice n d) from to); try lia.
      - apply same_lattice_closed.
      - intros v a Ha. apply swap_lattice; lia. }
    apply same_lattice_ext. intros i j Hi Hj. symmetry. apply B. assumption.
Qed.

(* ---------------------------------------------------------- SizeReduce *)

Lemma update_b_rel : forall n k X b R, closed n R ->
  (forall v j r, j < k -> R v (subtract_column v k j r)) ->
  (forall i c, i < n -> zof (update_b n k X b) i c
     = if c =? k then (zof b i k - zsum k (fun j => nth j X 0 * zof b i j))%Z
       else zof b i c) /\
  R (zof b) (zof (update_b n k X b)).
Proof.
  intros n k X b R [CE CT] CS. unfold update_b.
  pose (P := fun m b' => m <= k ->
    (forall i c, i < n -> zof b' i c
       = if c =? k then (zof b i k - zsum m (fun j => nth j X 0 * zof b i j))%Z
         else zof b i c) /\
    R (zof b) (zof b')).
  cut (P k (loop 0 k (fun i b => loop 0 n (subtract_row X k i) b) b));
    [intros HP; apply HP; lia|].
  refine (loop0_inv P _ _ _ _ _); unfold P.
  - intros _. split; [|apply CE; reflexivity]. intros i c _. cbn [zsum].
    destruct (Nat.eqb_spec c k) as [->|]; [ring|reflexivity].
  - intros j b1 Hj I _. destruct (I ltac:(lia)) as [I1 I2]. clear I.
    assert (E : forall i c, zof (loop 0 n (subtract_row X k j) b1) i c
      = if (i <? n) && (c =? k) then (zof b1 i k - nth j X 0 * zof b1 i j)%Z else zof b1 i c).
    { refine (loop0_inv (fun m b2 => forall i c, zof b2 i c
        = if (i <? m) && (c =? k) then (zof b1 i k - nth j X 0 * zof b1 i j)%Z
          else zof b1 i c) _ _ _ _ _); cbv beta.
      - reflexivity.
      - intros row b2 Hrow IH i c. unfold subtract_row. rewrite zof_zset, !zof_zget, !IH.
        destruct (Nat.ltb_spec row row); [lia|]. cbn [andb].
        destruct (Nat.eqb_spec i row) as [->|N].
        + destruct (Nat.ltb_spec row (S row)); [|lia]. cbn [andb].
          destruct (c =? k); [reflexivity|].
          destruct (Nat.ltb_spec row row); [lia|reflexivity].
        + destruct (Nat.ltb_spec i row); destruct (Nat.ltb_spec i (S row)); try lia; reflexivity. }
    split.
    + intros i c Hi. rewrite E. destruct (Nat.ltb_spec i n); [|lia]. cbn [andb].
      destruct (Nat.eqb_spec c k) as [->|N].
      * rewrite !I1 by assumption. rewrite Nat.eqb_refl.
        destruct (Nat.eqb_spec j k); [lia|]. cbn [zsum]. ring.
      * rewrite I1 by assumption. destruct (Nat.eqb_spec c k); [contradiction|reflexivity].
    + eapply CT; [exact I2|].
      eapply CT; [apply (CS (zof b1) j (nth j X 0%Z)); lia|].
      apply CE. intros i c Hi. rewrite E. unfold subtract_column.
      destruct (Nat.ltb_spec i n); [|lia]. reflexivity.
Qed.

Lemma update_b_spec : forall n d k X b, k < d ->
  (forall i c, i < n -> zof (update_b n k X b) i c
     = if c =? k then (zof b i k - zsum k (fun j => nth j X 0 * zof b i j))%Z
       else zof b i c) /\
  same_lattice n d (zof b) (zof (update_b n k X b)).
Proof.
  intros n d k X b Hk. apply update_b_rel; [apply same_lattice_closed|].
  intros v j r Hj. apply subtract_lattice; lia.
Qed.

Lemma update_diagonal_spec : forall k X G a c,
  zof (update_diagonal k X G) a c
  = if (a =? k) && (c =? k) then
      (zof G k k + (zsum k (fun j => nth j X 0 * (nth j X 0 * zof G j j))
       - 2 * zsum k (fun j => nth j X 0 * zof G j k)
       + 2 * zsum k (fun j => zsum j (fun i => nth i X 0 * (nth j X 0 * zof G i j)))))%Z
    else zof G a c.
Proof.
  intros k X G a c. unfold update_diagonal. cbv zeta.
  match goal with |- context [loop 0 k ?b _] => set (body := b) end.
  assert (E : loop 0 k body (0, 0, 0)%Z
    = (zsum k (fun j => nth j X 0 * (nth j X 0 * zof G j j)),
       zsum k (fun j => nth j X 0 * zof G j k),
       zsum k (fun j => zsum j (fun i => nth i X 0 * (nth j X 0 * zof G i j))))%Z).
  { refine (loop0_inv (fun m s => s =
      (zsum m (fun j => nth j X 0 * (nth j X 0 * zof G j j)),
       zsum m (fun j => nth j X 0 * zof G j k),
       zsum m (fun j => zsum j (fun i => nth i X 0 * (nth j X 0 * zof G i j))))%Z) _ _ _ _ _); cbv beta.
    - reflexivity.
    - intros j s Hj ->. unfold body. cbn [zsum].
      rewrite (loop_zsum j (fun i => (nth i X 0 * (nth j X 0 * zget G i j))%Z)). reflexivity. }
  rewrite E, zof_zset. reflexivity.
Qed.

Lemma update_G_spec : forall n d k X b G, k < d -> is_gram n d b G ->
  is_gram n d (update_b n k X b) (update_G d k X G).
Proof.
  intros n d k X b G Hk HG.
  destruct (update_b_spec n d k X b Hk) as [B _].
  set (b' := update_b n k X b) in *. set (v := zof b) in *.
  set (x := fun j => nth j X 0%Z).
  (* The new products. *)
  assert (G1 : forall i, i <> k -> gram n (zof b') i k
    = (gram n v i k - zsum k (fun j => x j * gram n v i j))%Z).
  { intros i Ni. unfold gram at 1.
    rewrite (zsum_ext n _ (fun r => v r i * v r k
      - zsum k (fun j => x j * (v r i * v r j)))%Z).
    - rewrite zsum_minus, zsum_exchange. f_equal. apply zsum_ext. intros j _.
      apply zsum_scale.
    - intros r Hr. rewrite !B, Nat.eqb_refl by assumption.
      destruct (Nat.eqb_spec i k); [contradiction|].
      rewrite (zsum_ext k (fun j => x j * (v r i * v r j))%Z
                 (fun j => v r i * (x j * v r j))%Z) by (intros; ring).
      rewrite zsum_scale. unfold x. ring. }
  assert (G2 : gram n (zof b') k k
    = (gram n v k k + (zsum k (fun j => x j * (x j * gram n v j j))
       - 2 * zsum k (fun j => x j * gram n v j k)
       + 2 * zsum k (fun j => zsum j (fun i => x i * (x j * gram n v i j)))))%Z).
  { transitivity (gram n v k k
      + (zsum k (fun i => zsum k (fun j => x i * (x j * gram n v i j)))
         - 2 * zsum k (fun j => x j * gram n v j k)))%Z.
    2:{ rewrite (zsum_symmetric k (fun i j => x i * (x j * gram n v i j))%Z); [ring|].
        intros i j _ _. rewrite (gram_sym n v i j). ring. }
    unfold gram at 1.
    rewrite (zsum_ext n _ (fun r => v r k * v r k
      + (zsum k (fun i => zsum k (fun j => x i * (x j * (v r i * v r j))))
         - 2 * zsum k (fun j => x j * (v r j * v r k))))%Z).
    - rewrite zsum_plus, zsum_minus, zsum_scale. unfold gram at 1. f_equal. f_equal.
      + rewrite zsum_exchange. apply zsum_ext. intros i _. rewrite zsum_exchange.
        apply zsum_ext. intros j _. unfold gram.
        rewrite zsum_scale, zsum_scale. reflexivity.
      + f_equal. rewrite zsum_exchange. apply zsum_ext. intros j _. apply zsum_scale.
    - intros r Hr. rewrite !B, Nat.eqb_refl by assumption.
      fold v. set (S := zsum k (fun j => nth j X 0 * v r j)%Z).
      assert (E1 : zsum k (fun j => x j * (v r j * v r k))%Z = (S * v r k)%Z).
      { rewrite (zsum_ext k _ (fun j => v r k * (x j * v r j))%Z) by (intros; ring).
        rewrite zsum_scale. unfold S, x. ring. }
      assert (E2 : zsum k (fun i => zsum k (fun j => x i * (x j * (v r i * v r j))))%Z
                   = (S * S)%Z).
      { rewrite (zsum_ext k _ (fun i => S * (x i * v r i))%Z).
        - rewrite zsum_scale. reflexivity.
        - intros i _. rewrite (zsum_ext k _ (fun j => (x i * v r i) * (x j * v r j))%Z)
            by (intros; ring). rewrite zsum_scale. unfold S, x. ring. }
      rewrite E1, E2. ring. }
  assert (G3 : forall i j, i <> k -> j <> k -> gram n (zof b') i j = gram n v i j).
  { intros i j Ni Nj. apply zsum_ext. intros r Hr. rewrite !B by assumption.
    destruct (Nat.eqb_spec i k); [contradiction|].
    destruct (Nat.eqb_spec j k); [contradiction|reflexivity]. }
  unfold update_G.
  match goal with |- is_gram n d b' (loop 0 d ?f _) => set (body := f) end.
  pose (P := fun m G' =>
    (forall i j, i < d -> j < d -> i <> k -> j <> k -> zof G' i j = gram n v i j) /\
    zof G' k k = gram n (zof b') k k /\
    (forall i, i < d -> i <> k ->
       zof G' i k = gram n (if i <? m then zof b' else v) i k /\
       (i < m -> zof G' k i = gram n (zof b') k i))).
  assert (R : P d (loop 0 d body (update_diagonal k X G))).
  { refine (loop0_inv P _ _ _ _ _); cbv beta; unfold P.
    - split; [|split].
      + intros i j Hi Hj Ni Nj. rewrite update_diagonal_spec.
        destruct (Nat.eqb_spec i k); [contradiction|]. cbn [andb]. apply HG; assumption.
      + rewrite update_diagonal_spec, !Nat.eqb_refl. cbn [andb]. rewrite G2.
        rewrite HG by lia. f_equal. f_equal; [f_equal|].
        * apply zsum_ext. intros j Hj. rewrite HG by lia. reflexivity.
        * f_equal. apply zsum_ext. intros j Hj. rewrite HG by lia. reflexivity.
        * f_equal. apply zsum_ext. intros j Hj. apply zsum_ext. intros i Hi.
          rewrite HG by lia. reflexivity.
      + intros i Hi Ni. rewrite update_diagonal_spec.
        destruct (Nat.eqb_spec i k); [contradiction|]. cbn [andb Nat.ltb Nat.leb].
        split; [apply HG; assumption|intros; lia].
    - intros i G' Hi (I1 & I2 & I3). unfold body.
      destruct (Nat.eqb_spec i k) as [->|Ni].
      + split; [exact I1|]. split; [exact I2|]. intros i Hi' Ni.
        destruct (I3 i Hi' Ni) as [J1 J2]. split.
        * rewrite J1. destruct (Nat.ltb_spec i k); destruct (Nat.ltb_spec i (S k)); try lia;
            reflexivity.
        * intros. apply J2. lia.
      + cbv zeta. rewrite (loop_zsum k (fun j => (nth j X 0 * zget G' i j)%Z)).
        set (y := (zget G' i k - (0 + zsum k (fun j => nth j X 0 * zget G' i j)))%Z).
        assert (Y : y = gram n (zof b') i k).
        { unfold y. rewrite zof_zget. destruct (I3 i Hi Ni) as [J1 _]. rewrite J1.
          destruct (Nat.ltb_spec i i); [lia|]. rewrite G1 by assumption.
          rewrite Z.add_0_l. f_equal. apply zsum_ext. intros j Hj.
          rewrite zof_zget, I1 by lia. reflexivity. }
        rewrite (zof_zget (zset G' i k y)), zof_zset, !Nat.eqb_refl. cbn [andb].
        split; [|split].
        * intros a c Ha Hc Na Nc. rewrite !zof_zset.
          destruct (Nat.eqb_spec a k); [contradiction|].
          destruct (Nat.eqb_spec c k); [contradiction|]. rewrite andb_false_r.
          apply I1; assumption.
        * rewrite !zof_zset. destruct (Nat.eqb_spec k i); [congruence|].
          rewrite andb_false_r. exact I2.
        * intros a Ha Na. rewrite !zof_zset, !Nat.eqb_refl.
          destruct (Nat.eqb_spec a k); [contradiction|]. cbn [andb].
          rewrite andb_true_r.
          destruct (Nat.eqb_spec a i) as [->|Nai].
          { destruct (Nat.ltb_spec i (S i)); [|lia]. split; [exact Y|].
            intros _. rewrite gram_sym. exact Y. }
          { rewrite andb_false_r. destruct (I3 a Ha Na) as [J1 J2]. split.
            - rewrite J1. destruct (Nat.ltb_spec a i); destruct (Nat.ltb_spec a (S i)); try lia;
                reflexivity.
            - intros. apply J2. lia. } }
  destruct R as (R1 & R2 & R3). intros i j Hi Hj.
  destruct (Nat.eq_dec i k) as [->|Ni]; destruct (Nat.eq_dec j k) as [->|Nj].
  - exact R2.
  - destruct (R3 j Hj Nj) as [_ H]. apply H. exact Hj.
  - destruct (R3 i Hi Ni) as [H _]. destruct (Nat.ltb_spec i d); [|lia]. exact H.
  - rewrite G3 by assumption. apply R1; assumption.
Qed.

Lemma SizeReduce_inv : forall ops fuel n d k b G f b' G' f', k < d ->
  SizeReduce ops fuel n d k b G f = Done (b', G', f') -> is_gram n d b G ->
  is_gram n d b' G' /\ same_lattice n d (zof b) (zof b').
Proof.
  intros ops fuel n d k; induction fuel as [|fuel IH]; intros b G f b' G' f' Hk E HG;
    cbn [SizeReduce] in E; [discriminate E|].
  destruct (size_reduced _ _ _).
  - injection E as <- <- <-. split; [exact HG|apply same_lattice_refl].
  - destruct (compute_X _ _ _) as [[X p] mu]. destruct p; [|discriminate E].
    destruct (IH _ _ _ _ _ _ Hk E) as [I1 I2]; [apply update_G_spec; assumption|].
    split; [exact I1|]. eapply same_lattice_trans; [|exact I2]. apply update_b_spec. exact Hk.
Qed.

Lemma find_insertion_le : forall ops fuel z k f, find_insertion ops fuel z k f <= k.
Proof.
  intros ops fuel z; induction fuel as [|fuel IH]; intros k f; cbn [find_insertion]; [lia|].
  destruct (_ && _); [|lia]. specialize (IH (k - 1) f). lia.
Qed.

Lemma ns_loop_inv : forall ops fuel n d z k b G f b',
  ns_loop ops fuel n d z k b G f = Done b' -> is_gram n d b G ->
  same_lattice n d (zof b) (zof b').
Proof.
  intros ops fuel n d; induction fuel as [|fuel IH]; intros z k b G f b' E HG;
    cbn [ns_loop] in E; destruct (Nat.ltb_spec k d) as [L|L]; try discriminate E;
    try (injection E as <-; apply same_lattice_refl).
  destruct (SizeReduce ops (S fuel) n d k b G f) as [[[b1 G1] f1]| |] eqn:ES; try discriminate E.
  destruct (SizeReduce_inv _ _ _ _ _ _ _ _ _ _ _ L ES HG) as [H1 H2].
  pose proof (find_insertion_le ops k z k f1) as K.
  destruct (Nat.eqb_spec k (find_insertion ops k z k f1)) as [Ek|Nk].
  - eapply same_lattice_trans; [exact H2|]. eapply IH; [exact E|exact H1].
  - destruct (Insert k (find_insertion ops k z k f1) n d b1 G1) as [b2 G2] eqn:EI.
    assert (T : find_insertion ops k z k f1 < k) by lia.
    destruct (Insert_spec _ _ _ _ _ _ _ _ T L EI) as (_ & J1 & J2).
    eapply same_lattice_trans; [exact H2|]. eapply same_lattice_trans; [exact J2|].
    eapply IH; [exact E|]. apply J1. exact H1.
Qed.
