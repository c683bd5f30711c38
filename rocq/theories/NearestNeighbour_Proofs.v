From Coq Require Import Bool List Reals Lra Lia Permutation Arith.
From Verif Require Import NearestNeighbour_Model.
Import ListNotations.
Open Scope R_scope.

(** * Specification *)
(** Euclidean geometry. *)
Definition distance2 (a b : vector) : R := (x a - x b)² + (y a - y b)² + (z a - z b)².
(** [r] is a pointer to one of the nearest of the admitted values, or nothing if no value is admitted. *)
Definition nearest (l : list value) (filter : nat -> bool) (q : vector) (r : option nat) : Prop :=
  match r with
  | None => forall v, In v l -> filter (pointer v) = false
  | Some p => exists v, In v l /\ pointer v = p /\ filter p = true /\ forall w, In w l -> filter (pointer w) = true -> distance2 (position v) q <= distance2 (position w) q
  end.
(** The direction is a unit vector; and the postcondition of std::nth_element in the C++ standard. *)
Definition partitioned (k : nat) (l l' : list (nat * R)) : Prop :=
  Permutation l l' /\ (forall a b, In a (firstn k l') -> In b (skipn k l') -> snd a <= snd b) /\
  (forall n b, nth_error l' k = Some n -> In b (skipn k l') -> snd n <= snd b).
Definition lib_ok (lib : library) : Prop :=
  (forall l, Norm2 (principal_axis lib l) = 1) /\ (forall k l, (k < length l)%nat -> partitioned k l (nth_element lib k l)).
(** The states that the client can reach. *)
Definition run (lib : library) (m : nat) (initial added : list value) : option state :=
  fold_left (fun s v => match s with Some s => Add lib m s v | None => None end) added (Construct lib m initial).
(** The leaves. *)
Fixpoint cells (t : tree) : list (list nat) := match t with Leaf l => [l] | Internal _ _ f s => cells f ++ cells s end.

(** * Trees *)
Fixpoint indices (t : tree) : list nat := match t with Leaf l => l | Internal _ _ f s => indices f ++ indices s end.
Definition side (d : list vector) (a c : vector) (i : nat) : R := InnerProduct a (sub (displacement d i) c).
Fixpoint ok (m : nat) (d : list vector) (t : tree) : Prop :=
  match t with
  | Leaf l => l <> [] /\ (length l <= m)%nat
  | Internal a c f s =>
    Norm2 a = 1 /\ (forall i, In i (indices f) -> side d a c i <= 0) /\ (forall i, In i (indices s) -> 0 <= side d a c i) /\ ok m d f /\ ok m d s
  end.

Lemma ltb_spec a b : Rltb a b = true <-> a < b.
Proof. unfold Rltb. destruct (Rlt_dec a b); split; intros; try discriminate; auto; lra. Qed.
Lemma ltb_false a b : Rltb a b = false <-> b <= a.
Proof. unfold Rltb. destruct (Rlt_dec a b); split; intros; try discriminate; auto; lra. Qed.
Lemma ltb_case a b : (Rltb a b = true /\ a < b) \/ (Rltb a b = false /\ b <= a).
Proof. unfold Rltb. destruct (Rlt_dec a b); [left|right]; split; auto; lra. Qed.

Lemma inner_sub a u v : InnerProduct a (sub u v) = InnerProduct a u - InnerProduct a v.
Proof. unfold InnerProduct, sub; cbn [x y z]; ring. Qed.
Lemma cauchy_schwarz a v : Norm2 a = 1 -> InnerProduct a v * InnerProduct a v <= Norm2 v.
Proof.
  unfold Norm2, InnerProduct. destruct a as [a b c], v as [u v w]; cbn [x y z]. intros H.
  assert (E : u * u + v * v + w * w - (a*u+b*v+c*w)*(a*u+b*v+c*w) = (a*v-b*u)*(a*v-b*u) + (b*w-c*v)*(b*w-c*v) + (c*u-a*w)*(c*u-a*w)).
  { replace (u * u + v * v + w * w) with ((a*a+b*b+c*c) * (u * u + v * v + w * w)) by (rewrite H; ring). ring. }
  pose proof (Rle_0_sqr (a*v-b*u)). pose proof (Rle_0_sqr (b*w-c*v)). pose proof (Rle_0_sqr (c*u-a*w)). unfold Rsqr in *. lra.
Qed.
Lemma norm2_distance u v : Norm2 (sub u v) = distance2 u v.
Proof. unfold Norm2, InnerProduct, sub, distance2, Rsqr; cbn [x y z]; ring. Qed.

Lemma max_element_spec l a : let m := max_element a l in In m (a :: l) /\ forall b, In b (a :: l) -> snd b <= snd m.
Proof.
  unfold max_element. revert a. induction l as [|b l IH]; intros a; cbn [fold_left].
  - split; [now left|]. intros b [<-|[]]. lra.
  - destruct (ltb_case (snd a) (snd b)) as [[-> H]|[-> H]].
    + destruct (IH b) as [I M]. split; [now right|]. intros c [<-|K]; [|now apply M]. specialize (M b (or_introl eq_refl)). lra.
    + destruct (IH a) as [I M]. split; [destruct I; [now left|now right; right]|].
      intros c [<-|[<-|K]]; [apply M; now left| |apply M; now right]. specialize (M a (or_introl eq_refl)). lra.
Qed.
Lemma barycentre_2 a u v : InnerProduct a (Barycentre [u; v]) = (InnerProduct a u + InnerProduct a v) / 2.
Proof. unfold Barycentre, InnerProduct. cbn [fold_right length x y z]. change (INR 2) with (1 + 1). field. Qed.

Lemma div2_between n : (2 <= n)%nat -> (1 <= Nat.div2 n < n)%nat.
Proof. intros H. rewrite Nat.div2_div. split; [apply Nat.div_le_lower_bound; lia|apply Nat.div_lt; lia]. Qed.

Lemma build_ok lib m d : lib_ok lib -> (1 <= m)%nat -> forall fuel l, (length l < fuel)%nat -> l <> [] ->
  exists t, BuildTree fuel lib m d l = Some t /\ ok m d t /\ Permutation (map fst l) (indices t) /\ ((m < length l)%nat -> exists a c f s, t = Internal a c f s).
Proof.
  intros [U N] M fuel. induction fuel as [|fuel IH]; intros l F E; [lia|].
  cbn [BuildTree]. destruct (Nat.leb_spec (length l) m) as [L|L].
  - eexists; split; [reflexivity|]. cbn [ok indices]. split; [split; [destruct l; [congruence|discriminate]|rewrite map_length; lia]|]. split; [reflexivity|lia].
  - set (axis := principal_axis lib _). set (pl := map _ l). set (mid := Nat.div2 (length l)).
    assert (ML := div2_between (length l) ltac:(lia)). fold mid in ML.
    assert (PL : length pl = length l) by (unfold pl; apply map_length).
    destruct (N mid pl ltac:(lia)) as (P & B & T).
    set (pr := nth_element lib mid pl) in *.
    assert (PR : length pr = length l) by (rewrite <- (Permutation_length P); exact PL).
    assert (V : forall a, In a pr -> snd a = InnerProduct axis (displacement d (fst a))).
    { intros a I. apply (Permutation_in _ (Permutation_sym P)) in I. unfold pl in I. apply in_map_iff in I. destruct I as (b & <- & _). reflexivity. }
    assert (UL : length (firstn mid pr) = mid) by (apply firstn_length_le; lia).
    assert (VL : length (skipn mid pr) = (length l - mid)%nat) by (rewrite skipn_length; lia).
    assert (SP : pr = firstn mid pr ++ skipn mid pr) by (symmetry; apply firstn_skipn).
    assert (NE : nth_error pr mid = nth_error (skipn mid pr) 0).
    { rewrite SP at 1. rewrite nth_error_app2 by lia. f_equal. lia. }
    set (lo := firstn mid pr) in *. set (up := skipn mid pr) in *.
    destruct (IH lo) as (t1 & B1 & O1 & P1 & _); [lia|intros ->; cbn in *; lia|].
    destruct (IH up) as (t2 & B2 & O2 & P2 & _); [lia|intros EE; rewrite EE in VL; cbn in *; lia|].
    clearbody lo up. destruct up as [|mu up]; [cbn in VL; lia|].
    rewrite B1, B2. eexists. split; [reflexivity|].
    set (ml := match lo with [] => mu | l0 :: ls => max_element l0 ls end).
    assert (MLI : In ml lo /\ forall b, In b lo -> snd b <= snd ml).
    { unfold ml. destruct lo as [|l0 ls]; [cbn in UL; lia|]. apply max_element_spec. }
    destruct MLI as [MI MX].
    assert (MU : In mu (mu :: up)) by now left.
    assert (Iml : In ml pr) by (rewrite SP; apply in_or_app; auto).
    assert (Imu : In mu pr) by (rewrite SP; apply in_or_app; auto).
    pose proof (V _ Iml) as Vml. pose proof (V _ Imu) as Vmu. pose proof (B _ _ MI MU) as Bm.
    split; [|split; [|intros _; eauto]].
    + cbn [ok]. split; [apply U|].
      assert (forall i, side d axis (Barycentre [displacement d (fst ml); displacement d (fst mu)]) i = InnerProduct axis (displacement d i) - (snd ml + snd mu) / 2) as SD.
      { intros i. unfold side. rewrite inner_sub, barycentre_2, <- Vml, <- Vmu. reflexivity. }
      split; [|split; [|split; assumption]].
      * intros i I. apply (Permutation_in _ (Permutation_sym P1)) in I. apply in_map_iff in I. destruct I as (a & <- & I).
        rewrite SD, <- V by (rewrite SP; apply in_or_app; auto). specialize (MX a I). lra.
      * intros i I. apply (Permutation_in _ (Permutation_sym P2)) in I. apply in_map_iff in I. destruct I as (a & <- & I).
        rewrite SD, <- V by (rewrite SP; apply in_or_app; auto). specialize (T mu a NE I). lra.
    + cbn [indices]. rewrite <- P1, <- P2, <- map_app, <- SP, <- P. unfold pl. rewrite map_map. cbn [fst]. reflexivity.
Qed.

Lemma ok_ext m d d' t : (forall i, In i (indices t) -> displacement d' i = displacement d i) -> ok m d t -> ok m d' t.
Proof.
  induction t as [l|a c f IHf s IHs]; intros E; cbn [ok indices] in *; [auto|].
  intros (N & F & S & O1 & O2). split; [exact N|].
  split; [|split; [|split; [apply IHf|apply IHs]; auto; intros; apply E; apply in_or_app; auto]];
    intros i I; unfold side; rewrite E by (apply in_or_app; auto); [apply F|apply S]; exact I.
Qed.
Lemma add_ok lib m d index : lib_ok lib -> (1 <= m)%nat -> forall t, ok m d t ->
  exists t', AddIndex lib m d index t = Some t' /\ ok m d t' /\ Permutation (index :: indices t) (indices t').
Proof.
  intros L M t. induction t as [l|a c f IHf s IHs]; intros O; cbn [AddIndex].
  - destruct (Nat.ltb_spec m (length (l ++ [index]))) as [K|K].
    + destruct (build_ok lib m d L M (S (length (l ++ [index]))) (map (fun i => (i, 0)) (l ++ [index]))) as (t & B & O' & P & I).
      { rewrite map_length. lia. }
      { destruct l; discriminate. }
      rewrite B. rewrite map_length in I. destruct (I K) as (a & c & f & s & ->). eexists. split; [reflexivity|]. split; [exact O'|].
      rewrite <- P, map_map. cbn [fst]. rewrite map_id. cbn [indices]. apply Permutation_cons_append.
    + eexists. split; [reflexivity|]. cbn [ok indices]. split; [split; [destruct l; discriminate|exact K]|apply Permutation_cons_append].
  - destruct O as (N & F & S & O1 & O2). destruct (IHf O1) as (f' & E1 & F1 & P1). destruct (IHs O2) as (s' & E2 & F2 & P2).
    fold (side d a c index). destruct (ltb_case (side d a c index) 0) as [[-> H]|[-> H]].
    + rewrite E1. eexists. split; [reflexivity|]. cbn [ok indices]. split.
      * split; [exact N|]. split; [|auto]. intros i I. apply (Permutation_in _ (Permutation_sym P1)) in I. destruct I as [<-|I]; [lra|auto].
      * rewrite <- P1. reflexivity.
    + rewrite E2. eexists. split; [reflexivity|]. cbn [ok indices]. split.
      * split; [exact N|]. split; [auto|split; [|auto]]. intros i I. apply (Permutation_in _ (Permutation_sym P2)) in I. destruct I as [<-|I]; [lra|auto].
      * rewrite <- P2. apply Permutation_cons_app. reflexivity.
Qed.

(** * States *)
Definition inv (m : nat) (s : state) : Prop :=
  displacements s = map (fun v => sub (position v) (centroid s)) (values s) /\
  match root s with
  | None => values s = []
  | Some t => values s <> [] /\ ok m (displacements s) t /\ Permutation (seq 0 (length (values s))) (indices t)
  end.
Lemma initialize_inv lib m v : lib_ok lib -> (1 <= m)%nat -> v <> [] -> exists s, Initialize lib m v = Some s /\ inv m s /\ values s = v.
Proof.
  intros L M E. unfold Initialize. set (c := Barycentre _). set (d := map _ v).
  assert (D : length d = length v) by apply map_length.
  destruct (build_ok lib m d L M (S (length d)) (map (fun i => (i, 0)) (seq 0 (length d)))) as (t & B & O & P & _).
  { rewrite map_length, seq_length. lia. }
  { rewrite D. destruct v; [congruence|discriminate]. }
  rewrite B. eexists. split; [reflexivity|]. split; [|reflexivity]. split; [reflexivity|]. cbn [root values displacements]. split; [exact E|]. split; [exact O|].
  rewrite <- P, map_map, map_id, D. reflexivity.
Qed.
Lemma add_inv lib m s v : lib_ok lib -> (1 <= m)%nat -> inv m s -> exists s', Add lib m s v = Some s' /\ inv m s' /\ values s' = values s ++ [v].
Proof.
  intros L M [D R]. unfold Add. destruct (Nat.eqb_spec (length (values s ++ [v])) 1) as [E|E].
  - apply initialize_inv; auto. destruct (values s); discriminate.
  - destruct (root s) as [t|].
    2: { rewrite R in E. cbn in E. lia. }
    destruct R as (NE & O & P).
    assert (LD : length (displacements s) = length (values s)) by (rewrite D; apply map_length).
    set (d := displacements s ++ _).
    destruct (add_ok lib m d (length (displacements s)) L M t) as (t' & A & O' & P').
    { apply (ok_ext m (displacements s)); [|exact O]. intros i I. apply (Permutation_in _ (Permutation_sym P)) in I. apply in_seq in I.
      unfold d, displacement. apply app_nth1. lia. }
    rewrite A. eexists. split; [reflexivity|]. split; [|reflexivity]. split; cbn [displacements values centroid root].
    + unfold d. rewrite map_app. cbn [map]. rewrite <- D. reflexivity.
    + split; [destruct (values s); discriminate|]. split; [exact O'|].
      rewrite app_length, seq_app. cbn [length seq Nat.add]. rewrite <- P', <- P, LD. symmetry. apply Permutation_cons_append.
Qed.
Lemma run_inv lib m initial added : lib_ok lib -> (1 <= m)%nat -> exists s, run lib m initial added = Some s /\ inv m s /\ values s = initial ++ added.
Proof.
  intros L M. unfold run.
  assert (exists s, Construct lib m initial = Some s /\ inv m s /\ values s = initial) as (s & -> & I & V).
  { destruct initial as [|v vs]; cbn [Construct].
    - eexists. split; [reflexivity|]. split; [|reflexivity]. split; reflexivity.
    - apply initialize_inv; auto. discriminate. }
  revert s initial I V. induction added as [|v added IH]; intros s initial I V; cbn [fold_left].
  - exists s. rewrite app_nil_r. auto.
  - destruct (add_inv lib m s v L M I) as (s' & -> & I' & V'). rewrite V in V'.
    destruct (IH s' (initial ++ [v]) I' V') as (s'' & H). exists s''. rewrite <- app_assoc in H. exact H.
Qed.

(** * Finding *)
Definition admitted (s : state) (filter : nat -> bool) (i : nat) : bool := match nth_error (values s) i with Some v => filter (pointer v) | None => false end.
Definition far (s : state) (q : vector) (i : nat) : R := Norm2 (sub (displacement (displacements s) i) q).
Definition best (s : state) (filter : nat -> bool) (q : vector) (l : list nat) (r : option R) (i : option nat) : Prop :=
  (r = None /\ i = None /\ forall j, In j l -> admitted s filter j = false) \/
  (exists i0, r = Some (far s q i0) /\ i = Some i0 /\ In i0 l /\ admitted s filter i0 = true /\ forall j, In j l -> admitted s filter j = true -> far s q i0 <= far s q j).

Lemma leaf_best s filter q l : forall seen r i, best s filter q seen r i ->
  let '(r', i') := fold_left (fun '(min_distance2, min_index) index =>
            let distance2 := Norm2 (sub (displacement (displacements s) index) q) in
            if (less (Some distance2) min_distance2 && match nth_error (values s) index with Some v => filter (pointer v) | None => false end)%bool
            then (Some distance2, Some index) else (min_distance2, min_index)) l (r, i) in
  best s filter q (seen ++ l) r' i'.
Proof.
  induction l as [|k l IH]; intros seen r i B; cbn [fold_left]; [rewrite app_nil_r; exact B|].
  cbv zeta. fold (far s q k). fold (admitted s filter k).
  replace (seen ++ k :: l) with ((seen ++ [k]) ++ l) by (rewrite <- app_assoc; reflexivity).
  destruct (admitted s filter k) eqn:A.
  - rewrite andb_true_r. destruct B as [(-> & -> & B)|(i0 & -> & -> & I & A0 & B)]; cbn [less].
    + apply IH. right. exists k. split; [reflexivity|]. split; [reflexivity|]. split; [apply in_or_app; right; now left|]. split; [exact A|].
      intros j J AJ. apply in_app_or in J. destruct J as [J|[<-|[]]]; [rewrite B in AJ by exact J; discriminate|lra].
    + destruct (ltb_case (far s q k) (far s q i0)) as [[-> H]|[-> H]].
      * apply IH. right. exists k. split; [reflexivity|]. split; [reflexivity|]. split; [apply in_or_app; right; now left|]. split; [exact A|].
        intros j J AJ. apply in_app_or in J. destruct J as [J|[<-|[]]]; [specialize (B j J AJ); lra|lra].
      * apply IH. right. exists i0. split; [reflexivity|]. split; [reflexivity|]. split; [apply in_or_app; now left|]. split; [exact A0|].
        intros j J AJ. apply in_app_or in J. destruct J as [J|[<-|[]]]; [auto|lra].
  - rewrite andb_false_r. apply IH. destruct B as [(-> & -> & B)|(i0 & -> & -> & I & A0 & B)].
    + left. do 2 (split; [reflexivity|]). intros j J. apply in_app_or in J. destruct J as [J|[<-|[]]]; auto.
    + right. exists i0. split; [reflexivity|]. split; [reflexivity|]. split; [apply in_or_app; now left|]. split; [exact A0|].
      intros j J AJ. apply in_app_or in J. destruct J as [J|[<-|[]]]; [auto|congruence].
Qed.
Lemma best_union s filter q l l' r i r' i' : best s filter q l r i -> best s filter q l' r' i' ->
  let '(r'', i'') := if less r' r then (r', i') else (r, i) in best s filter q (l ++ l') r'' i''.
Proof.
  intros [(-> & -> & B)|(i0 & -> & -> & I & A0 & B)] [(-> & -> & B')|(i1 & -> & -> & I' & A1 & B')]; cbn [less].
  - left. do 2 (split; [reflexivity|]). intros j J. apply in_app_or in J. destruct J; auto.
  - right. exists i1. do 2 (split; [reflexivity|]). split; [apply in_or_app; auto|]. split; [exact A1|]. intros j J AJ. apply in_app_or in J. destruct J as [J|J]; [rewrite B in AJ by exact J; discriminate|auto].
  - right. exists i0. do 2 (split; [reflexivity|]). split; [apply in_or_app; auto|]. split; [exact A0|]. intros j J AJ. apply in_app_or in J. destruct J as [J|J]; [auto|rewrite B' in AJ by exact J; discriminate].
  - destruct (ltb_case (far s q i1) (far s q i0)) as [[-> H]|[-> H]]; right.
    + exists i1. do 2 (split; [reflexivity|]). split; [apply in_or_app; auto|]. split; [exact A1|]. intros j J AJ. apply in_app_or in J. destruct J as [J|J]; [specialize (B j J AJ); lra|auto].
    + exists i0. do 2 (split; [reflexivity|]). split; [apply in_or_app; auto|]. split; [exact A0|]. intros j J AJ. apply in_app_or in J. destruct J as [J|J]; [auto|specialize (B' j J AJ); lra].
Qed.
(** The values of the other side are at least as far as the plane. *)
Lemma prune s q a c j : Norm2 a = 1 -> InnerProduct a (sub q c) * side (displacements s) a c j <= 0 -> InnerProduct a (sub q c) * InnerProduct a (sub q c) <= far s q j.
Proof.
  intros N H. pose proof (cauchy_schwarz a (sub (displacement (displacements s) j) q) N) as C. fold (far s q j) in C.
  assert (E : InnerProduct a (sub (displacement (displacements s) j) q) = side (displacements s) a c j - InnerProduct a (sub q c)).
  { unfold side. rewrite !inner_sub. ring. }
  rewrite E in C. set (p := InnerProduct a (sub q c)) in *. set (o := side _ a c j) in *. pose proof (Rle_0_sqr o) as Z. unfold Rsqr in Z.
  replace ((o - p) * (o - p)) with (o * o - 2 * (p * o) + p * p) in C by ring. lra.
Qed.
Lemma best_perm s filter q l l' r i : (forall j, In j l <-> In j l') -> best s filter q l r i -> best s filter q l' r i.
Proof.
  intros P [(-> & -> & B)|(i0 & -> & -> & I & A & B)]; [left|right].
  - do 2 (split; [reflexivity|]). intros j J. apply B, P, J.
  - exists i0. do 2 (split; [reflexivity|]). split; [apply P, I|]. split; [exact A|]. intros j J. apply B, P, J.
Qed.
Lemma find_best m s filter q t : ok m (displacements s) t -> forall parent wanted,
  exists r i, Find s filter q parent t wanted = Some (r, i, check_other_side q parent wanted r) /\ best s filter q (indices t) r i.
Proof.
  induction t as [l|a c f IHf g IHg]; intros O parent wanted; cbn [Find].
  - destruct O as [O _]. pose proof (leaf_best s filter q l [] None None) as B. cbn [app] in B.
    set (g := fold_left _ l _) in *. destruct l as [|k l]; [congruence|]. destruct g as [r i]. exists r, i. split; [reflexivity|]. apply B. left. repeat split. intros j [].
  - destruct O as (N & F & G & O1 & O2). set (p := InnerProduct a (sub q c)).
    assert (Hmain : forall (pref other : tree),
      (forall j, In j (indices pref) \/ In j (indices other) <-> In j (indices f ++ indices g)) ->
      (forall parent wanted, exists r i, Find s filter q parent pref wanted = Some (r, i, check_other_side q parent wanted r) /\ best s filter q (indices pref) r i) ->
      (forall parent wanted, exists r i, Find s filter q parent other wanted = Some (r, i, check_other_side q parent wanted r) /\ best s filter q (indices other) r i) ->
      (forall j, In j (indices other) -> p * side (displacements s) a c j <= 0) ->
      exists r i, match Find s filter q (Some (a, c)) pref true with
        | Some (preferred_min_distance2, preferred_min_index, Some preferred_must_check_other_side) =>
          let min :=
            if preferred_must_check_other_side then
              match Find s filter q parent other false with
              | Some (other_min_distance2, other_min_index, _) =>
                if less other_min_distance2 preferred_min_distance2 then Some (other_min_distance2, other_min_index) else Some (preferred_min_distance2, preferred_min_index)
              | None => None
              end
            else Some (preferred_min_distance2, preferred_min_index) in
          match min with
          | Some (min_distance2, min_index) => Some (min_distance2, min_index, check_other_side q parent wanted min_distance2)
          | None => None
          end
        | _ => None
        end = Some (r, i, check_other_side q parent wanted r) /\ best s filter q (indices f ++ indices g) r i).
    { intros pref other I Hp Ho Hs. destruct (Hp (Some (a, c)) true) as (r & i & -> & B). destruct (Ho parent false) as (r' & i' & -> & B').
      cbn [check_other_side]. fold p. destruct (less (Some (p * p)) r) eqn:K.
      - pose proof (best_union s filter q _ _ r i r' i' B B') as BB.
        destruct (less r' r); eexists _, _; (split; [reflexivity|]); eapply best_perm; try exact BB; intros j; rewrite in_app_iff; apply I.
      - eexists _, _. split; [reflexivity|]. destruct B as [(-> & _ & _)|(i0 & -> & -> & Ii & A & B)]; [discriminate K|]. cbn [less] in K. apply ltb_false in K.
        right. exists i0. do 2 (split; [reflexivity|]). split; [apply I; auto|]. split; [exact A|]. intros j J AJ. apply I in J. destruct J as [J|J]; [auto|].
        pose proof (prune s q a c j N (Hs j J)) as PR. fold p in PR. lra. }
    cbn [indices]. destruct (ltb_case p 0) as [[-> H]|[-> H]].
    + apply Hmain; auto.
      * intros j. symmetry. apply in_app_iff.
      * intros j J. specialize (G j J). apply Ropp_le_cancel. rewrite Ropp_0, Ropp_mult_distr_l. apply Rmult_le_pos; lra.
    + apply Hmain; auto.
      * intros j. rewrite in_app_iff. tauto.
      * intros j J. specialize (F j J). apply Ropp_le_cancel. rewrite Ropp_0, Ropp_mult_distr_r. apply Rmult_le_pos; lra.
Qed.

Lemma far_distance m s q i v : inv m s -> nth_error (values s) i = Some v -> far s (sub q (centroid s)) i = distance2 (position v) q.
Proof.
  intros [D _] E. unfold far, displacement. rewrite D.
  assert (L : (i < length (values s))%nat) by (apply nth_error_Some; congruence).
  rewrite (nth_indep _ _ (sub (position v) (centroid s))) by (rewrite map_length; exact L).
  rewrite (map_nth (fun v => sub (position v) (centroid s))). rewrite (nth_error_nth _ _ _ E).
  unfold Norm2, InnerProduct, sub, distance2, Rsqr; cbn [x y z]; ring.
Qed.
Lemma find_nearest m s q filter : inv m s -> exists r, FindNearestNeighbour s q filter = Some r /\ nearest (values s) filter q r.
Proof.
  intros I. pose proof I as [D R]. unfold FindNearestNeighbour.
  destruct (root s) as [t|].
  - destruct R as (NE & O & P). destruct (displacements s) as [|d0 ds] eqn:DE.
    + destruct (values s); [congruence|discriminate D].
    + rewrite <- DE in *. destruct (find_best m s filter (sub q (centroid s)) t O None false) as (r & i & -> & B).
      assert (IN : forall j, In j (indices t) <-> (j < length (values s))%nat).
      { intros j. rewrite <- (in_seq (length (values s)) 0) at 1 || idtac. split; intros J.
        - apply (Permutation_in _ (Permutation_sym P)) in J. apply in_seq in J. lia.
        - apply (Permutation_in _ P). apply in_seq. lia. }
      destruct B as [(-> & -> & B)|(i0 & -> & -> & II & A & B)].
      * eexists. split; [reflexivity|]. intros v V. apply In_nth_error in V. destruct V as (j & J).
        specialize (B j). unfold admitted in B. rewrite J in B. apply B, IN. apply nth_error_Some. congruence.
      * unfold admitted in A. destruct (nth_error (values s) i0) as [v|] eqn:E; [|discriminate]. eexists. split; [reflexivity|].
        exists v. split; [eapply nth_error_In; eassumption|]. split; [reflexivity|]. split; [exact A|].
        intros w W AW. apply In_nth_error in W. destruct W as (j & J).
        rewrite <- (far_distance m s q i0 v I E), <- (far_distance m s q j w I J). apply B.
        -- apply IN. apply nth_error_Some. congruence.
        -- unfold admitted. rewrite J. exact AW.
  - rewrite R in D. cbn in D. rewrite D. eexists. split; [reflexivity|]. intros v V. rewrite R in V. destruct V.
Qed.

Lemma indices_cells t : indices t = concat (cells t).
Proof. induction t as [l|a c f IHf g IHg]; cbn; [now rewrite app_nil_r|]. now rewrite concat_app, IHf, IHg. Qed.
Lemma ok_cells m d t : ok m d t -> Forall (fun c => c <> [] /\ (length c <= m)%nat) (cells t).
Proof. induction t as [l|a c f IHf g IHg]; cbn [cells ok]; [auto|]. intros (_ & _ & _ & F & G). apply Forall_app; auto. Qed.

(** * Theorems *)
Lemma nearest_ok lib m initial added : lib_ok lib -> (1 <= m)%nat ->
  exists s, run lib m initial added = Some s /\ forall q filter, exists r, FindNearestNeighbour s q filter = Some r /\ nearest (initial ++ added) filter q r.
Proof.
  intros L M. destruct (run_inv lib m initial added L M) as (s & R & I & <-). exists s. split; [exact R|]. intros. eapply find_nearest; eassumption.
Qed.
Lemma tree_ok lib m initial added : lib_ok lib -> (1 <= m)%nat ->
  exists s, run lib m initial added = Some s /\ values s = initial ++ added /\
    match root s with
    | None => initial ++ added = []
    | Some t => Permutation (seq 0 (length (initial ++ added))) (concat (cells t)) /\ Forall (fun c => c <> [] /\ (length c <= m)%nat) (cells t)
    end.
Proof.
  intros L M. destruct (run_inv lib m initial added L M) as (s & R & (_ & I) & <-). exists s. split; [exact R|]. split; [reflexivity|].
  destruct (root s); [|exact I]. destruct I as (_ & O & P). rewrite <- indices_cells. split; [exact P|]. eapply ok_cells; eassumption.
Qed.
(** The recursion does not end if the cells may have no value. *)
Lemma build_0 lib d : lib_ok lib -> forall fuel l, l <> [] -> BuildTree fuel lib 0 d l = None.
Proof.
  intros [_ N] fuel. induction fuel as [|fuel IH]; intros l E; cbn [BuildTree]; [reflexivity|].
  destruct l as [|a l]; [congruence|]. cbn [length Nat.leb].
  set (pl := map _ (a :: l)). set (mid := Nat.div2 (S (length l))).
  assert (PL : length pl = S (length l)) by (unfold pl; apply (map_length _ (a :: l))).
  assert (ML : (mid < S (length l))%nat) by (unfold mid; apply Nat.lt_div2; lia).
  destruct (N mid pl ltac:(lia)) as (P & _). apply Permutation_length in P.
  set (pr := nth_element lib mid pl) in *. assert (VL := skipn_length mid pr).
  destruct (skipn mid pr) as [|mu up] eqn:U; [cbn [length] in VL; rewrite <- P, PL in VL; lia|].
  rewrite (IH (mu :: up)) by discriminate. destruct (BuildTree _ _ _ _ _); reflexivity.
Qed.

(** * The library exists *)
Fixpoint insert (a : nat * R) (l : list (nat * R)) : list (nat * R) := match l with [] => [a] | b :: m => if Rltb (snd b) (snd a) then b :: insert a m else a :: l end.
Definition sorted_library : library := Library (fun _ => Vector 0 0 1) (fun _ l => fold_right insert [] l).
Lemma insert_perm a l : Permutation (a :: l) (insert a l).
Proof. induction l as [|b l IH]; cbn [insert]; [reflexivity|]. destruct (Rltb _ _); [|reflexivity]. rewrite perm_swap, IH. reflexivity. Qed.
Inductive sorted : list (nat * R) -> Prop := sorted_nil : sorted [] | sorted_cons a l : (forall b, In b l -> snd a <= snd b) -> sorted l -> sorted (a :: l).
Lemma insert_sorted a l : sorted l -> sorted (insert a l).
Proof.
  induction l as [|b l IH]; intros S; cbn [insert]; [constructor; [intros ? []|constructor]|]. inversion S as [|? ? H S']; subst.
  destruct (ltb_case (snd b) (snd a)) as [[-> K]|[-> K]].
  - constructor; [|auto]. intros c C. apply (Permutation_in _ (Permutation_sym (insert_perm a l))) in C. destruct C as [<-|C]; [lra|auto].
  - constructor; [|exact S]. intros c [<-|C]; [exact K|]. specialize (H c C). lra.
Qed.
Lemma sorted_partitioned l : sorted l -> forall k, (forall a b, In a (firstn k l) -> In b (skipn k l) -> snd a <= snd b) /\ (forall n b, nth_error l k = Some n -> In b (skipn k l) -> snd n <= snd b).
Proof.
  induction 1 as [|a l H S IH]; intros [|k]; cbn [firstn skipn nth_error].
  - split; [intros ? ? []|discriminate].
  - split; [intros ? ? []|discriminate].
  - split; [intros ? ? []|]. intros n b E [<-|I]; inversion E; subst; [lra|auto].
  - destruct (IH k) as [A B]. split; [|exact B]. intros c b [<-|C] I; [|auto]. apply H. rewrite <- (firstn_skipn k l). apply in_or_app; auto.
Qed.
Lemma sorted_library_ok : lib_ok sorted_library.
Proof.
  split.
  - intros l. unfold Norm2, InnerProduct; cbn [principal_axis sorted_library x y z]. ring.
  - intros k l _. cbn [nth_element sorted_library]. assert (Permutation l (fold_right insert [] l) /\ sorted (fold_right insert [] l)) as [P S].
    { induction l as [|a l [P S]]; cbn [fold_right]; [split; constructor|]. split; [rewrite <- insert_perm; constructor; exact P|apply insert_sorted, S]. }
    split; [exact P|]. apply sorted_partitioned, S.
Qed.
