(** Proofs for the continuous trajectories: evaluation, checkpoints, prepending. *)
From Coq Require Import ZArith Bool List Lia.
From Verif Require Import ContinuousTrajectory_Model ContinuousTrajectory_Spec ContinuousTrajectory_Proofs.
Import ListNotations.
Open Scope Z_scope.
Local Opaque max_length.

Section Proofs.
  Context {Point Poly : Type}.
  Variable newhall : Z -> list Point -> Z -> Z -> Poly * Z.
  Variable spaced : Z -> Z -> bool.
  Notation trajectory := (trajectory Point Poly).

  Definition sorted (l : list (Z * Poly)) : Prop := forall i j t p u q, (i < j)%nat -> nth_error l i = Some (t, p) -> nth_error l j = Some (u, q) -> t < u.
  Lemma sorted_tail : forall x l, sorted (x :: l) -> sorted l.
  Proof. intros x l H i j t p u q L A B. exact (H (S i) (S j) t p u q ltac:(lia) A B). Qed.

  Lemma lower_bound_unique : forall l time i t p, sorted l -> nth_error l i = Some (t, p) -> time <= t ->
    (forall j u q, S j = i -> nth_error l j = Some (u, q) -> u < time) -> lower_bound l time = i.
  Proof.
    induction l as [|[t0 p0] l IH]; intros time i t p St A T B; [destruct i; discriminate |]. cbn [lower_bound]. destruct i as [|i].
    - cbn in A. injection A as -> ->. destruct (Z.ltb_spec t time); [lia | reflexivity].
    - assert (t0 < time).
      { destruct i as [|i]; [exact (B 0%nat t0 p0 eq_refl eq_refl) |].
        destruct (nth_error ((t0, p0) :: l) (S i)) as [[u q] |] eqn:E; [| exfalso; apply nth_error_None in E; assert (S (S i) < length ((t0, p0) :: l))%nat by (apply nth_error_Some; rewrite A; discriminate); lia].
        pose proof (B (S i) u q eq_refl E). pose proof (St 0%nat (S i) t0 p0 u q ltac:(lia) eq_refl E). lia. }
      destruct (Z.ltb_spec t0 time); [| lia]. f_equal. apply (IH time i t p); [exact (sorted_tail _ _ St) | exact A | exact T |].
      intros j u q J E. exact (B (S j) u q ltac:(lia) E).
  Qed.
  Lemma lower_bound_le : forall (l : list (Z * Poly)) time, (lower_bound l time <= length l)%nat.
  Proof. induction l as [|[t p] l IH]; intros time; cbn; [lia |]. destruct (t <? time); [specialize (IH time) |]; lia. Qed.
  Lemma lower_bound_before : forall (l : list (Z * Poly)) time j t p, (j < lower_bound l time)%nat -> nth_error l j = Some (t, p) -> t < time.
  Proof.
    induction l as [|[t0 p0] l IH]; intros time j t p; cbn [lower_bound]; [lia |]. destruct (Z.ltb_spec t0 time); [| lia].
    destruct j as [|j]; cbn [nth_error]; [intros _ E; injection E as <- <-; assumption | intros L; apply IH; lia].
  Qed.
  Lemma lower_bound_at : forall (l : list (Z * Poly)) time t p, nth_error l (lower_bound l time) = Some (t, p) -> time <= t.
  Proof.
    induction l as [|[t0 p0] l IH]; intros time t p; cbn [lower_bound]; [discriminate |]. destruct (Z.ltb_spec t0 time); cbn [nth_error]; [apply IH |]. intros E. injection E as <- <-. assumption.
  Qed.

  (** The cache does not change the result. *)
  Lemma find_ok : forall (s : trajectory) c time, sorted (polynomials_ s) ->
    exists c', FindPolynomialForInstant (with_cache s c) time = (lower_bound (polynomials_ s) time, with_cache s c') /\ (c' = c \/ c' <= length (polynomials_ s))%nat.
  Proof.
    intros s c time St. unfold FindPolynomialForInstant. cbn [last_accessed_polynomial_ polynomials_ with_cache].
    destruct (match nth_error (polynomials_ s) c with Some (t, _) => _ | None => false end) eqn:E.
    - exists c. split; [| left; reflexivity]. f_equal. destruct (nth_error (polynomials_ s) c) as [[t p] |] eqn:N; [| discriminate].
      apply andb_prop in E. destruct E as [T B]. apply Z.leb_le in T. symmetry. apply (lower_bound_unique _ _ _ t p St N T).
      intros j u q <- J. rewrite J in B. apply Z.ltb_lt in B. exact B.
    - exists (lower_bound (polynomials_ s) time). split; [reflexivity | right; apply lower_bound_le].
  Qed.

  Lemma times_increase : forall l, (forall a b, spaced a b = true -> a < b) -> steps spaced l ->
    forall j i t (q : Point) u r, (i < j)%nat -> nth_error l i = Some (t, q) -> nth_error l j = Some (u, r) -> t < u.
  Proof.
    intros l Sp St. induction j as [|j IH]; intros i t q u r L A B; [lia |].
    assert (nth_error l j <> None). { intros E. apply nth_error_None in E. assert (S j < length l)%nat by (apply nth_error_Some; rewrite B; discriminate). lia. }
    destruct (nth_error l j) as [[v w] |] eqn:E; [| congruence]. pose proof (Sp _ _ (St j v w u r E B)).
    destruct (Nat.eq_dec i j) as [-> | N]; [rewrite A in E; injection E as -> ->; assumption |]. pose proof (IH i t q v w ltac:(lia) A eq_refl). lia.
  Qed.
  Lemma inv_sorted : forall tol l s, (forall a b, spaced a b = true -> a < b) -> inv newhall spaced tol l s -> sorted (polynomials_ s).
  Proof.
    intros tol l s Sp (_ & _ & _ & St & _ & K). cbv zeta in K. destruct K as (_ & _ & _ & AP). intros i j t p u q L A B.
    destruct (AP _ _ _ A) as (d & e & t0 & q0 & q1 & _ & _ & X & _). destruct (AP _ _ _ B) as (d' & e' & t0' & q0' & q1' & _ & _ & Y & _).
    exact (times_increase l Sp St (8 * j + 8) (8 * i + 8) _ _ _ _ ltac:(lia) X Y).
  Qed.

  Lemma t_max_last : forall s : trajectory, t_max s = match nth_error (polynomials_ s) (length (polynomials_ s) - 1) with Some (t, _) => Some t | None => None end.
  Proof.
    intros s. unfold t_max. destruct (polynomials_ s) as [|x l] eqn:E using rev_ind; [reflexivity |]. clear. rewrite rev_app_distr, app_length. cbn [rev app length].
    rewrite nth_error_app2 by lia. replace (length l + 1 - 1 - length l)%nat with O by lia. destruct x. reflexivity.
  Qed.

  (** The polynomial that is evaluated is that of an interval that contains the time. *)
  Theorem evaluate_ok : forall tol l (s : trajectory) c time, (forall a b, spaced a b = true -> a < b) -> inv newhall spaced tol l s ->
    match t_min s, t_max s with
    | Some a, Some b =>
      if (a <=? time) && (time <=? b)
      then exists p c' i u q t, Evaluate (with_cache s c) time = Some (p, with_cache s c') /\ approximates newhall l i t p /\
             nth_error l (8 * i) = Some (u, q) /\ time <= t /\ (u < time \/ i = 0%nat /\ time = u)
      else Evaluate (with_cache s c) time = None
    | _, _ => Evaluate (with_cache s c) time = None /\ (length l <= 8)%nat
    end.
  Proof.
    intros tol l s c time Sp I. pose proof (inv_sorted tol l s Sp I) as So. destruct I as (_ & _ & F & St & _ & K). cbv zeta in K. destruct K as (_ & E & L & AP).
    pose proof (t_max_last s) as TM.
    assert (EV : Evaluate (with_cache s c) time = match t_min s, t_max s with Some a, Some b => if (a <=? time) && (b >=? time) then
      let (i, s') := FindPolynomialForInstant (with_cache s c) time in match nth_error (polynomials_ s) i with Some (_, p) => Some (p, s') | None => None end else None | _, _ => None end) by reflexivity.
    rewrite EV. clear EV.
    destruct (polynomials_ s) as [|x ps] eqn:P.
    - unfold t_min. rewrite P. split; [reflexivity |]. destruct l; [cbn; lia |]. specialize (L ltac:(discriminate)). cbn [length] in *. lia.
    - assert (LE : l <> []) by (intros ->; specialize (E eq_refl); rewrite E in P; discriminate). specialize (L LE). rewrite <- P in *.
      set (k := length (polynomials_ s)) in *. assert (K1 : (1 <= k)%nat) by (unfold k; rewrite P; cbn; lia).
      destruct (nth_error (polynomials_ s) (k - 1)) as [[b pb] |] eqn:NB; [| apply nth_error_None in NB; unfold k in *; lia].
      destruct l as [|[a qa] l']; [congruence |]. assert (Tm : t_min s = Some a) by (unfold t_min; rewrite P; exact F). rewrite Tm, TM, Z.geb_leb.
      destruct (Z.leb_spec a time) as [Ta |]; [| reflexivity]. destruct (Z.leb_spec time b) as [Tb |]; [| reflexivity]. cbn [andb].
      destruct (find_ok s c time So) as [c' [-> _]]. set (i := lower_bound (polynomials_ s) time).
      destruct (nth_error (polynomials_ s) i) as [[t p] |] eqn:NI.
      + exists p, c', i. destruct (AP _ _ _ NI) as (d & e & u & q & q1 & D & X & Y & N). exists u, q, t. split; [reflexivity |].
        split; [exact (ex_intro _ d (ex_intro _ e (ex_intro _ u (ex_intro _ q (ex_intro _ q1 (conj D (conj X (conj Y N)))))))) |]. split; [exact X |].
        split; [exact (lower_bound_at _ _ _ _ NI) |]. destruct i as [|j] eqn:IE.
        * rewrite Nat.mul_0_r in X. cbn in X. injection X as <- <-. destruct (Z.eq_dec a time); [right; auto | left; lia].
        * left. assert (nth_error (polynomials_ s) j <> None) by (intros Z; apply nth_error_None in Z; assert (S j < length (polynomials_ s))%nat by (apply nth_error_Some; rewrite NI; discriminate); lia).
          destruct (nth_error (polynomials_ s) j) as [[v w] |] eqn:NJ; [| congruence].
          destruct (AP _ _ _ NJ) as (_ & _ & _ & _ & q2 & _ & _ & Y2 & _). replace (8 * S j)%nat with (8 * j + 8)%nat in X by lia. rewrite Y2 in X. injection X as <- <-.
          apply (lower_bound_before (polynomials_ s) time j v w); [fold i; lia | exact NJ].
      + exfalso. apply nth_error_None in NI. assert (k - 1 < lower_bound (polynomials_ s) time)%nat by (fold i; unfold k in *; lia).
        pose proof (lower_bound_before _ _ _ _ _ H NB). lia.
  Qed.

  (** Checkpoints. *)
  Lemma upper_bound_ok : forall (l : list (Z * Poly)) time k, (k <= length l)%nat -> (forall i t p, (i < k)%nat -> nth_error l i = Some (t, p) -> t <= time) ->
    (forall i t p, (k <= i)%nat -> nth_error l i = Some (t, p) -> time < t) -> upper_bound l time = k.
  Proof.
    induction l as [|[t0 p0] l IH]; intros time k K A B; [cbn in *; lia |]. cbn [upper_bound]. destruct k as [|k].
    - pose proof (B 0%nat t0 p0 ltac:(lia) eq_refl). destruct (Z.ltb_spec time t0); [reflexivity | lia].
    - pose proof (A 0%nat t0 p0 ltac:(lia) eq_refl). destruct (Z.ltb_spec time t0); [lia |]. f_equal. apply IH; [cbn in K; lia | |].
      + intros i t p I. exact (A (S i) t p ltac:(lia)).
      + intros i t p I. exact (B (S i) t p ltac:(lia)).
  Qed.
  Theorem checkpoint_ok : forall tol l m s s', (forall a b, spaced a b = true -> a < b) -> inv newhall spaced tol l s -> append_all newhall spaced s m = Some s' ->
    forall c, ReadFromCheckpoint (WriteToCheckpoint s) (with_cache s' c) = s.
  Proof.
    intros tol l m s s' Sp I A c. pose proof (inv_append_all newhall spaced m tol l s s' I A) as I'. destruct (append_all_grows newhall spaced m s s' A) as [x PX].
    destruct I as (_ & T & F & St & C & K). cbv zeta in K. destruct K as (LP & E & L & AP).
    destruct I' as (_ & T' & F' & St' & _ & K'). cbv zeta in K'. destruct K' as (_ & _ & _ & AP').
    unfold ReadFromCheckpoint, WriteToCheckpoint. cbn [c_tolerance c_unstable c_degree c_age c_points tolerance_ with_cache polynomials_ first_time_].
    rewrite T'. destruct (last_points_ s) as [|[o qo] lp] eqn:LS.
    - destruct l as [|y l']; [| exfalso; specialize (L ltac:(discriminate)); symmetry in LP; assert (length (skipn (8 * length (polynomials_ s)) (y :: l')) = O) by (rewrite LP; reflexivity); rewrite skipn_length in *; lia].
      specialize (E eq_refl). rewrite E. reflexivity.
    - assert (O : nth_error l (8 * length (polynomials_ s)) = Some (o, qo)).
      { pose proof (nth_skipn _ l (8 * length (polynomials_ s)) 0) as N. rewrite <- LP, Nat.add_0_r in N. symmetry. exact N. }
      assert (UB : upper_bound (polynomials_ s') o = length (polynomials_ s)).
      { apply upper_bound_ok.
        - rewrite PX, app_length. lia.
        - intros i t p I N. rewrite PX, nth_error_app1 in N by exact I. destruct (AP _ _ _ N) as (_ & _ & _ & _ & q1 & _ & _ & Y & _).
          destruct (Nat.eq_dec (8 * i + 8) (8 * length (polynomials_ s))) as [Q | Q]; [rewrite Q, O in Y; injection Y as <- <-; lia |].
          pose proof (times_increase l Sp St (8 * length (polynomials_ s)) (8 * i + 8) _ _ _ _ ltac:(lia) Y O). lia.
        - intros i t p I N. destruct (AP' _ _ _ N) as (_ & _ & _ & _ & q1 & _ & _ & Y & _).
          assert (O' : nth_error (l ++ m) (8 * length (polynomials_ s)) = Some (o, qo)) by (rewrite nth_error_app1; [exact O | apply nth_error_Some; rewrite O; discriminate]).
          exact (times_increase (l ++ m) Sp St' (8 * i + 8) (8 * length (polynomials_ s)) _ _ _ _ ltac:(lia) O' Y). }
      rewrite UB, PX, firstn_app, firstn_all, Nat.sub_diag. cbn [firstn]. rewrite app_nil_r.
      assert (FT : match polynomials_ s with [] => Some o | _ => first_time_ s' end = first_time_ s).
      { destruct l as [|[t1 q1] l']; [rewrite skipn_nil in LP; discriminate |]. rewrite F', F. cbn [app]. destruct (polynomials_ s); [| reflexivity]. cbn in O. injection O as -> ->. reflexivity. }
      rewrite FT, <- LS, <- T, <- C. destruct s; reflexivity.
  Qed.

  (** Prepending. *)
  Lemma lower_bound_app : forall (l m : list (Z * Poly)) time t p, sorted l -> nth_error l (length l - 1) = Some (t, p) ->
    lower_bound (l ++ m) time = if time <=? t then lower_bound l time else (length l + lower_bound m time)%nat.
  Proof.
    induction l as [|[t0 p0] l IH]; intros m time t p So N; [discriminate |]. cbn [app lower_bound length]. destruct l as [|x l].
    - cbn in N. injection N as -> ->. cbn [app lower_bound length]. destruct (Z.ltb_spec t time), (Z.leb_spec time t); try lia; reflexivity.
    - cbn [length] in N. replace (S (S (length l)) - 1)%nat with (S (length (x :: l) - 1))%nat in N by (cbn [length]; lia). cbn [nth_error] in N.
      rewrite (IH m time t p (sorted_tail _ _ So) N). pose proof (So 0%nat (S (length (x :: l) - 1)) t0 p0 t p ltac:(lia) eq_refl N).
      destruct (Z.ltb_spec t0 time), (Z.leb_spec time t); try lia; reflexivity.
  Qed.
  Lemma evaluate_index : forall tol l (s : trajectory) c time, (forall a b, spaced a b = true -> a < b) -> inv newhall spaced tol l s ->
    option_map fst (Evaluate (with_cache s c) time) =
    match t_min s, t_max s with
    | Some a, Some b => if (a <=? time) && (time <=? b) then option_map snd (nth_error (polynomials_ s) (lower_bound (polynomials_ s) time)) else None
    | _, _ => None
    end.
  Proof.
    intros tol l s c time Sp I. pose proof (inv_sorted _ _ _ Sp I) as So.
    assert (EV : Evaluate (with_cache s c) time = match t_min s, t_max s with Some a, Some b => if (a <=? time) && (b >=? time) then
      let (i, s') := FindPolynomialForInstant (with_cache s c) time in match nth_error (polynomials_ s) i with Some (_, p) => Some (p, s') | None => None end else None | _, _ => None end) by reflexivity.
    rewrite EV. clear EV. destruct (t_min s) as [a |]; [| reflexivity]. destruct (t_max s) as [b |]; [| reflexivity]. rewrite Z.geb_leb. destruct (_ && _); [| reflexivity].
    destruct (find_ok s c time So) as [c' [-> _]]. destruct (nth_error _ _) as [[t p] |]; reflexivity.
  Qed.
  Lemma last_in : forall (s : trajectory) b, t_max s = Some b -> exists p, nth_error (polynomials_ s) (length (polynomials_ s) - 1) = Some (b, p).
  Proof. intros s b H. rewrite t_max_last in H. destruct (nth_error _ _) as [[t p] |]; [| discriminate]. injection H as ->. exists p. reflexivity. Qed.
  Lemma t_min_before_t_max : forall tol l s a b, (forall a b, spaced a b = true -> a < b) -> inv newhall spaced tol l s -> t_min s = Some a -> t_max s = Some b -> a < b.
  Proof.
    intros tol l s a b Sp (_ & _ & F & St & _ & K) A B. cbv zeta in K. destruct K as (_ & _ & _ & AP). destruct (last_in s b B) as [p N].
    destruct (AP _ _ _ N) as (_ & _ & _ & _ & q1 & _ & _ & Y & _). unfold t_min in A. destruct (polynomials_ s); [discriminate |]. rewrite A in F.
    destruct l as [|[t q] l']; [discriminate |]. injection F as <-. exact (times_increase _ Sp St _ 0%nat a q b q1 (Nat.lt_lt_add_l _ _ _ (Nat.lt_0_succ 7)) eq_refl Y).
  Qed.
  Theorem prepend_ok : forall tol l s tol' l' prefix r, (forall a b, spaced a b = true -> a < b) -> inv newhall spaced tol l s -> inv newhall spaced tol' l' prefix ->
    polynomials_ s <> [] -> polynomials_ prefix <> [] -> Prepend s prefix = Some r ->
    exists b, t_max prefix = Some b /\ t_min s = Some b /\ t_min r = t_min prefix /\ t_max r = t_max s /\
    forall c c1 c2 time,
      option_map fst (Evaluate (with_cache r c) time) = option_map fst (if time <=? b then Evaluate (with_cache prefix c1) time else Evaluate (with_cache s c2) time).
  Proof.
    intros tol l s tol' l' prefix r Sp I I' NS NP. pose proof (inv_sorted _ _ _ Sp I) as So. pose proof (inv_sorted _ _ _ Sp I') as So'.
    unfold Prepend. destruct (tolerance_ s =? tolerance_ prefix); [| discriminate].
    destruct (rev (polynomials_ prefix)) as [|[b pb] rp] eqn:R; [elim NP; rewrite <- (rev_involutive (polynomials_ prefix)), R; reflexivity |].
    destruct (polynomials_ s) as [|x ps] eqn:P; [congruence |]. rewrite <- P in *.
    destruct (first_time_ s) as [t |] eqn:F; [| discriminate]. destruct (Z.eqb_spec t b) as [-> |]; [| discriminate]. intros H. injection H as <-.
    assert (TB : t_max prefix = Some b) by (unfold t_max; rewrite R; reflexivity).
    assert (TS : t_min s = Some b) by (unfold t_min; rewrite P; exact F).
    set (r := mkTrajectory _ _ _ _ _ _ _ _ _).
    assert (TR : t_min r = t_min prefix).
    { unfold t_min, r. cbn [polynomials_ first_time_]. destruct (polynomials_ prefix); [congruence | reflexivity]. }
    destruct (t_max s) as [e |] eqn:TE; [| rewrite t_max_last in TE; destruct (nth_error (polynomials_ s) (length (polynomials_ s) - 1)) as [[? ?] |] eqn:N; [discriminate | apply nth_error_None in N; rewrite P in N; cbn in N; lia]].
    assert (TX : t_max r = Some e).
    { unfold t_max, r in *. cbn [polynomials_]. rewrite rev_app_distr. destruct (rev (polynomials_ s)) as [|[u v] w]; [discriminate | exact TE]. }
    exists b. split; [exact TB |]. split; [exact TS |]. split; [exact TR |]. split; [exact TX |]. intros c c1 c2 time.
    pose proof (t_min_before_t_max _ _ _ _ _ Sp I TS TE) as BE. destruct (last_in prefix b TB) as [p NB].
    assert (SR : sorted (polynomials_ r)).
    { unfold r. cbn [polynomials_]. destruct I as (_ & _ & F2 & St & _ & K). cbv zeta in K. destruct K as (_ & _ & _ & AP).
      assert (Big : forall j u q, nth_error (polynomials_ s) j = Some (u, q) -> b < u).
      { intros j u q N. destruct (AP _ _ _ N) as (_ & _ & _ & _ & q1 & _ & _ & Y & _). rewrite F in F2. destruct l as [|[t0 q0] l0]; [discriminate |]. injection F2 as ->.
        exact (times_increase _ Sp St (8 * j + 8) 0%nat t0 q0 u q1 ltac:(lia) eq_refl Y). }
      intros i j t0 p0 u q L A B. destruct (Nat.lt_ge_cases j (length (polynomials_ prefix))) as [J | J].
      - rewrite nth_error_app1 in A, B by lia. exact (So' i j t0 p0 u q L A B).
      - rewrite nth_error_app2 in B by lia. destruct (Nat.lt_ge_cases i (length (polynomials_ prefix))) as [J2 | J2].
        + rewrite nth_error_app1 in A by lia. pose proof (Big _ _ _ B).
          destruct (Nat.eq_dec i (length (polynomials_ prefix) - 1)) as [-> | Q]; [rewrite A in NB; injection NB as -> ->; lia |].
          pose proof (So' i (length (polynomials_ prefix) - 1)%nat t0 p0 b p ltac:(lia) A NB). lia.
        + rewrite nth_error_app2 in A by lia. exact (So (i - length (polynomials_ prefix))%nat (j - length (polynomials_ prefix))%nat t0 p0 u q ltac:(lia) A B). }
    assert (EV : option_map fst (Evaluate (with_cache r c) time) = match t_min r, t_max r with
      | Some a, Some b => if (a <=? time) && (time <=? b) then option_map snd (nth_error (polynomials_ r) (lower_bound (polynomials_ r) time)) else None | _, _ => None end).
    { assert (EV : Evaluate (with_cache r c) time = match t_min r, t_max r with Some a, Some b => if (a <=? time) && (b >=? time) then
        let (i, s') := FindPolynomialForInstant (with_cache r c) time in match nth_error (polynomials_ r) i with Some (_, p) => Some (p, s') | None => None end else None | _, _ => None end) by reflexivity.
      rewrite EV. clear EV TR TX. destruct (t_min r); [| reflexivity]. destruct (t_max r); [| reflexivity]. rewrite Z.geb_leb. destruct (_ && _); [| reflexivity].
      destruct (find_ok r c time SR) as [c' [-> _]]. destruct (nth_error (polynomials_ r) (lower_bound (polynomials_ r) time)) as [[? ?] |]; reflexivity. }
    rewrite EV, TR, TX. unfold r. cbn [polynomials_]. rewrite (lower_bound_app _ _ _ _ _ So' NB).
    destruct (Z.leb_spec time b) as [Tb | Tb].
    - rewrite (evaluate_index _ _ _ _ _ Sp I'), TB. destruct (t_min prefix) as [a |]; [| reflexivity].
      replace (time <=? e) with true by (symmetry; apply Z.leb_le; lia). replace (time <=? b) with true by (symmetry; apply Z.leb_le; lia). destruct (a <=? time); [cbn [andb] | reflexivity].
      rewrite nth_error_app1; [reflexivity |]. pose proof (lower_bound_le (polynomials_ prefix) time) as LE.
      destruct (Nat.eq_dec (lower_bound (polynomials_ prefix) time) (length (polynomials_ prefix))) as [Q |]; [| lia].
      assert (1 <= length (polynomials_ prefix))%nat by (destruct (polynomials_ prefix); [congruence | cbn; lia]).
      pose proof (lower_bound_before (polynomials_ prefix) time (length (polynomials_ prefix) - 1) b p ltac:(lia) NB). lia.
    - rewrite (evaluate_index _ _ _ _ _ Sp I), TS, TE. replace (b <=? time) with true by (symmetry; apply Z.leb_le; lia).
      assert (A : exists a, t_min prefix = Some a).
      { destruct I' as (_ & _ & F' & _ & _ & K'). cbv zeta in K'. destruct K' as (_ & E' & _). unfold t_min. destruct (polynomials_ prefix) as [|y pp] eqn:PP; [congruence |].
        destruct l' as [|[a q] l'']; [specialize (E' eq_refl); rewrite E' in PP; discriminate |]. exists a. exact F'. }
      destruct A as [a A]. rewrite A. pose proof (t_min_before_t_max _ _ _ _ _ Sp I' A TB). replace (a <=? time) with true by (symmetry; apply Z.leb_le; lia). cbn [andb].
      rewrite nth_error_app2 by lia. rewrite Nat.add_comm, Nat.add_sub. reflexivity.
  Qed.
End Proofs.
