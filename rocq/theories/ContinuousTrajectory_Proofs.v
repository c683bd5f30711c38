(** Proofs for the continuous trajectories. *)
From Coq Require Import ZArith Bool List Lia.
From Verif Require Import ContinuousTrajectory_Model ContinuousTrajectory_Spec.
Import ListNotations.
Open Scope Z_scope.

Section Proofs.
  Context {Point Poly : Type}.
  Variable newhall : Z -> list Point -> Z -> Z -> Poly * Z.
  Variable spaced : Z -> Z -> bool.
  Notation trajectory := (trajectory Point Poly).

  (** ** The choice of the degree. *)
  Lemma loop_ok : forall iterations points a b (f : fit), 17 - f_degree f <= Z.of_nat iterations ->
    let g := increase_degree newhall iterations points a b f in
    f_tolerance g = f_tolerance f /\ f_unstable g = f_unstable f /\ f_age g = f_age f /\ f_degree f <= f_degree g /\ (f_degree f <= 17 -> f_degree g <= 17) /\
    (g = f \/ (newhall (f_degree g) points a b = (f_polynomial g, f_error g) /\ f_degree f < f_degree g /\
               (f_previous g = f_error f /\ f_degree g = f_degree f + 1 \/ f_degree f + 1 < f_degree g /\ exists p, newhall (f_degree g - 1) points a b = (p, f_previous g)))) /\
    (f_error g <= f_tolerance g \/ f_previous g <= f_error g \/ 17 <= f_degree g).
  Proof.
    induction iterations as [|n IH]; intros points a b f L g.
    - subst g. cbn [increase_degree]. do 3 (split; [reflexivity |]). split; [lia |]. split; [lia |]. split; [left; reflexivity |]. right; right. lia.
    - subst g. cbn [increase_degree].
      destruct ((f_error f >? f_tolerance f) && (f_error f <? f_previous f) && (f_degree f <? max_degree)) eqn:C.
      + rewrite !andb_true_iff, Z.gtb_lt, !Z.ltb_lt in C. unfold max_degree in C. destruct C as [[C1 C2] C3].
        destruct (newhall (f_degree f + 1) points a b) as [p e] eqn:N.
        set (h := mkFit (f_tolerance f) (f_unstable f) (f_degree f + 1) (f_age f) p e (f_error f)).
        destruct (IH points a b h) as (A & B & D & E & F & G & H); [subst h; cbn [f_degree]; lia |].
        subst h. cbn [f_tolerance f_unstable f_degree f_age f_polynomial f_error f_previous] in *.
        split; [exact A |]. split; [exact B |]. split; [exact D |]. split; [lia |]. split; [intros; apply F; lia |]. split; [| exact H].
        right. destruct G as [-> | (G1 & G2 & G3)].
        * cbn [f_degree f_polynomial f_error f_previous]. split; [exact N |]. split; [lia |]. left. split; [reflexivity | lia].
        * split; [exact G1 |]. split; [lia |]. right. split; [lia |].
          destruct G3 as [[G3 G4] | [_ G3]]; [| exact G3]. exists p. rewrite G4, G3. replace (f_degree f + 1 + 1 - 1) with (f_degree f + 1) by ring. exact N.
      + do 3 (split; [reflexivity |]). split; [lia |]. split; [lia |]. split; [left; reflexivity |]. rewrite !andb_false_iff in C. destruct C as [[C | C] | C].
        * rewrite Z.gtb_ltb in C. apply Z.ltb_ge in C. auto.
        * apply Z.ltb_ge in C. auto.
        * unfold max_degree in C. apply Z.ltb_ge in C. auto.
  Qed.

  (** What holds of a trajectory, apart from its points and polynomials. *)
  Definition good (s : trajectory) : Prop :=
    0 < tolerance_ s < max_length / 2 /\ 3 <= degree_ s <= 17 /\ 0 <= degree_age_ s <= 100 /\ tolerance_ s <= adjusted_tolerance_ s /\
    (is_unstable_ s = false -> adjusted_tolerance_ s = tolerance_ s).

  Lemma max_positive : 0 < max_length.
  Proof. vm_compute. reflexivity. Qed.
  Lemma half_max : max_length / 2 < max_length.
  Proof. apply Z.div_lt; [exact max_positive | lia]. Qed.
  Local Opaque max_length.

  (** The polynomial that is kept has a degree [d] and an error [e]. *)
  Lemma best_fit_ok : forall s points a b, good s -> let f := best_fit newhall s points a b in
    3 <= f_degree f <= 17 /\ 0 <= f_age f <= 100 /\ tolerance_ s <= f_tolerance f /\ (f_unstable f = false -> f_tolerance f = tolerance_ s) /\
    exists d e, newhall d points a b = (f_polynomial f, e) /\ 3 <= d <= 17 /\ (f_unstable f = true \/ e <= f_tolerance f \/ d = 17).
  Proof.
    intros s points a b (T & D & A & L & U) f. unfold f, best_fit.
    set (s1 := restart_if_old s).
    assert (S1 : tolerance_ s1 = tolerance_ s /\ 3 <= degree_ s1 <= 17 /\ 0 <= degree_age_ s1 < 100 /\ tolerance_ s <= adjusted_tolerance_ s1 /\ (is_unstable_ s1 = false -> adjusted_tolerance_ s1 = tolerance_ s)).
    { unfold s1, restart_if_old, max_degree_age, min_degree. destruct (degree_age_ s >=? 100) eqn:E; rewrite Z.geb_leb in E.
      - cbn. lia.
      - apply Z.leb_gt in E. repeat split; auto; lia. }
    destruct S1 as (T1 & D1 & A1 & L1 & U1).
    set (f0 := first_fit newhall s1 points a b).
    assert (F0 : newhall (f_degree f0) points a b = (f_polynomial f0, f_error f0) /\ f_degree f0 = degree_ s1 /\ f_age f0 = degree_age_ s1 /\ f_tolerance f0 = adjusted_tolerance_ s1 /\ f_unstable f0 = is_unstable_ s1 /\ f_previous f0 = f_error f0 + f_error f0).
    { unfold f0, first_fit. destruct (newhall (degree_ s1) points a b) as [p e] eqn:N. cbn. rewrite N. repeat split. }
    destruct F0 as (N0 & D0 & A0 & T0 & U0 & P0).
    set (f1 := restart_if_unstable (tolerance_ s) f0).
    assert (F1 : f_tolerance f1 >= tolerance_ s /\ (f_unstable f1 = false -> f_tolerance f1 = tolerance_ s) /\ 0 <= f_age f1 < 100 /\ 2 <= f_degree f1 <= 17 /\
      ((newhall (f_degree f1) points a b = (f_polynomial f1, f_error f1) /\ 3 <= f_degree f1) \/ (f_degree f1 = 2 /\ f_error f1 = max_length / 2 /\ f_previous f1 = max_length /\ f_tolerance f1 = tolerance_ s))).
    { unfold f1, restart_if_unstable, min_degree. destruct (f_unstable f0 && (f_error f0 >? f_tolerance f0)).
      - cbn [f_tolerance f_unstable f_degree f_age f_polynomial f_error f_previous]. repeat split; try lia; try (right; repeat split; lia); auto.
      - rewrite D0, A0, T0, U0 in *. repeat split; try lia; auto. left. split; [exact N0 | lia]. }
    clearbody f0 f1 s1. destruct F1 as (T2 & U2 & A2 & D2 & K2).
    destruct (loop_ok 15 points a b f1 ltac:(lia)) as (B1 & B2 & B3 & B4 & B5 & B6 & B7).
    set (g := increase_degree newhall 15 points a b f1) in *. clearbody g.
    assert (K : newhall (f_degree g) points a b = (f_polynomial g, f_error g) /\ 3 <= f_degree g <= 17).
    { destruct B6 as [E | (E & G & _)].
      - destruct K2 as [[K2 K3] | (K2 & K3 & K4 & K5)].
        + rewrite E. split; [exact K2 | lia].
        + exfalso. rewrite E, K2, K3, K4, K5 in B7. pose proof half_max. lia.
      - split; [exact E | lia]. }
    destruct K as [K Kd]. unfold revert_if_unstable, min_degree. destruct (f_error g >=? f_previous g) eqn:R; rewrite Z.geb_leb in R; cbn [f_tolerance f_unstable f_degree f_age f_polynomial f_error f_previous].
    - split; [destruct (f_degree g >? 3) eqn:Q; [apply Z.gtb_lt in Q |]; lia |]. split; [lia |]. split; [lia |]. split; [discriminate |].
      exists (f_degree g), (f_error g). auto.
    - apply Z.leb_gt in R. split; [lia |]. split; [lia |]. split; [lia |]. split; [intros H; rewrite B1; apply U2; congruence |].
      exists (f_degree g), (f_error g). split; [exact K |]. split; [exact Kd |]. right. destruct B7 as [B | [B | B]]; [left; lia | lia | right; lia].
  Qed.

  (** ** The polynomials. *)
  Notation approximates := (approximates newhall).
  Notation steps := (@steps Point spaced).
  Definition inv (tol : Z) (l : list (Z * Point)) (s : trajectory) : Prop :=
    good s /\ tolerance_ s = tol /\ first_time_ s = match l with [] => None | (t, _) :: _ => Some t end /\ steps l /\ last_accessed_polynomial_ s = O /\
    let k := length (polynomials_ s) in
    last_points_ s = skipn (8 * k) l /\ (l = [] -> s = New tol) /\ (l <> [] -> (8 * k < length l <= 8 * k + 8)%nat) /\
    forall i t p, nth_error (polynomials_ s) i = Some (t, p) -> approximates l i t p.

  Lemma nth_skipn : forall A (l : list A) n i, nth_error (skipn n l) i = nth_error l (n + i).
  Proof. induction l as [|x l IH]; intros [|n] i; cbn; try reflexivity; [destruct i; reflexivity | apply IH]. Qed.
  Lemma approximates_more : forall l m i t p, approximates l i t p -> approximates (l ++ m) i t p.
  Proof.
    intros l m i t p (d & e & t0 & q0 & q1 & D & A & B & N). exists d, e, t0, q0, q1. split; [exact D |].
    assert (L : (8 * i + 8 < length l)%nat) by (apply nth_error_Some; rewrite B; discriminate).
    rewrite !nth_error_app1 by lia. split; [exact A |]. split; [exact B |]. rewrite skipn_app, firstn_app.
    replace (9 - length (skipn (8 * i) l))%nat with O by (rewrite skipn_length; lia). cbn [firstn]. rewrite app_nil_r. exact N.
  Qed.
  Lemma steps_snoc : forall l x, steps l -> match rev l with [] => True | (t, _) :: _ => spaced t (fst x) = true end -> steps (l ++ [x]).
  Proof.
    intros l x St R i t q u r A B. assert (LS : (S i < length (l ++ [x]))%nat) by (apply nth_error_Some; rewrite B; discriminate).
    rewrite app_length in LS. cbn [length] in LS. rewrite nth_error_app1 in A by lia.
    destruct (Nat.eq_dec (S i) (length l)) as [E | E].
    - rewrite nth_error_app2 in B by lia. rewrite E, Nat.sub_diag in B. cbn in B. injection B as ->.
      destruct (rev l) as [|y m] eqn:V.
      + assert (length (rev l) = O) by (rewrite V; reflexivity). rewrite rev_length in *. lia.
      + assert (W : l = rev m ++ [y]) by (rewrite <- (rev_involutive l), V; reflexivity). subst l. rewrite app_length in E. cbn [length] in E.
        rewrite nth_error_app2 in A by lia. replace (i - length (rev m))%nat with O in A by lia. cbn in A. injection A as ->. exact R.
    - rewrite nth_error_app1 in B by lia. exact (St i t q u r A B).
  Qed.

  Lemma inv_new : forall tol, 0 < tol < max_length / 2 -> inv tol [] (New tol).
  Proof.
    intros tol H. unfold inv, good, New, min_degree. cbn [tolerance_ adjusted_tolerance_ is_unstable_ degree_ degree_age_ polynomials_ last_accessed_polynomial_ first_time_ last_points_ length].
    split; [repeat split; lia |]. do 2 (split; [reflexivity |]). split; [intros i t q u r A; destruct i; discriminate |]. split; [reflexivity |]. split; [reflexivity |].
    split; [reflexivity |]. split; [intros X; elim X; reflexivity |]. intros i t p A. destruct i; discriminate.
  Qed.

  Lemma inv_append : forall tol l s t q s' status, inv tol l s -> Append newhall spaced s t q = Some (s', status) -> inv tol (l ++ [(t, q)]) s'.
  Proof.
    intros tol l s t q s' status (G & T & F & St & C & K). cbv zeta in K. destruct K as (LP & E & LE & AP). unfold Append.
    set (k := length (polynomials_ s)) in *.
    destruct (_ && _) eqn:CH; [| discriminate]. apply andb_prop in CH. destruct CH as [CH LL].
    assert (ST : steps (l ++ [(t, q)])).
    { apply steps_snoc; [exact St |]. cbn [fst]. destruct l as [|x l']; [exact I |]. rewrite F in CH. destruct x as [t1 q1].
      specialize (LE ltac:(discriminate)). rewrite LP in CH.
      assert (RV : rev ((t1, q1) :: l') = rev (skipn (8 * k) ((t1, q1) :: l')) ++ rev (firstn (8 * k) ((t1, q1) :: l'))) by (rewrite <- rev_app_distr, firstn_skipn; reflexivity).
      rewrite RV. destruct (rev (skipn (8 * k) ((t1, q1) :: l'))) as [|[u r] m] eqn:V; [discriminate CH |]. cbn [app]. exact CH. }
    assert (FT : match first_time_ s with Some t => Some t | None => Some t end = match l ++ [(t, q)] with [] => None | (t, _) :: _ => Some t end).
    { rewrite F. destruct l as [|[t1 q1] l']; reflexivity. }
    cbn [last_points_]. destruct (last_points_ s) as [|[a qa] lp] eqn:LS.
    - (* the first point *) cbn [fst snd]. intros H. injection H as <- <-.
      assert (l = []). { destruct l as [|x l']; [reflexivity |]. specialize (LE ltac:(discriminate)). symmetry in LP. assert (length (skipn (8 * k) (x :: l')) = O) by (rewrite LP; reflexivity). rewrite skipn_length in *. lia. }
      subst l. specialize (E eq_refl). assert (k = O) by (unfold k; rewrite E; reflexivity).
      assert (PS : polynomials_ s = []) by (rewrite E; reflexivity).
      unfold inv. cbn [tolerance_ adjusted_tolerance_ is_unstable_ degree_ degree_age_ polynomials_ last_accessed_polynomial_ first_time_ last_points_]. rewrite PS.
      split; [exact G |]. split; [exact T |]. split; [exact FT |]. split; [exact ST |]. split; [exact C |]. cbn. repeat split; try lia; try discriminate.
      intros i t0 p A. destruct i; discriminate.
    - assert (NE : l <> []) by (intros ->; rewrite skipn_nil in LP; discriminate). specialize (LE NE). rewrite <- LS in *.
      assert (LN : length (last_points_ s) = (length l - 8 * k)%nat) by (rewrite LP, skipn_length; reflexivity).
      unfold divisions in *. destruct (Nat.eqb_spec (length (last_points_ s)) 8) as [E8 | E8].
      + (* a polynomial is computed *)
        match goal with |- context [ComputeBestNewhallApproximation _ ?x _ _ _] => set (s0 := x) end.
        assert (G0 : good s0) by (exact G). pose proof (best_fit_ok s0 (map snd (last_points_ s) ++ [q]) a t G0) as B. cbv zeta in B.
        unfold ComputeBestNewhallApproximation. set (f := best_fit newhall s0 (map snd (last_points_ s) ++ [q]) a t) in *. clearbody f.
        cbn [tolerance_ adjusted_tolerance_ is_unstable_ degree_ degree_age_ polynomials_ last_accessed_polynomial_ first_time_ last_points_].
        intros H. injection H as <- <-. destruct B as (B1 & B2 & B3 & B4 & d & e & B5 & B6 & _). cbn [tolerance_ s0] in B3, B4.
        unfold inv. cbn [tolerance_ adjusted_tolerance_ is_unstable_ degree_ degree_age_ polynomials_ last_accessed_polynomial_ first_time_ last_points_ s0].
        split; [unfold good; cbn; destruct G as (G1 & _); repeat split; try lia; auto |]. split; [exact T |]. split; [exact FT |]. split; [exact ST |]. split; [exact C |].
        rewrite app_length. cbn [length]. fold k. split.
        { replace (8 * (k + 1))%nat with (length l) by lia. rewrite skipn_app, skipn_all, Nat.sub_diag. reflexivity. }
        split; [intros X; destruct l; discriminate |]. split; [intros _; rewrite app_length; cbn [length]; lia |].
        intros i t0 p A. destruct (Nat.lt_ge_cases i k) as [I | I].
        * rewrite nth_error_app1 in A by exact I. apply approximates_more. exact (AP i t0 p A).
        * rewrite nth_error_app2 in A by exact I. fold k in A. assert (i = k). { destruct (i - k)%nat as [|j] eqn:X; [lia |]. cbn in A. destruct j; discriminate. }
          subst i. rewrite Nat.sub_diag in A. cbn in A. injection A as <- <-.
          exists d, e, a, qa, q. split; [exact B6 |].
          assert (H0 : nth_error (skipn (8 * k) l) 0 = Some (a, qa)) by (rewrite <- LP, LS; reflexivity). rewrite nth_skipn, Nat.add_0_r in H0.
          rewrite nth_error_app1 by (apply nth_error_Some; rewrite H0; discriminate). split; [exact H0 |].
          replace (8 * k + 8)%nat with (length l) by lia. rewrite nth_error_app2, Nat.sub_diag by lia. split; [reflexivity |].
          rewrite skipn_app. replace (8 * k - length l)%nat with O by lia. cbn [skipn]. rewrite <- LP.
          rewrite firstn_all2 by (rewrite app_length; cbn [length]; lia). rewrite map_app. exact B5.
      + (* no polynomial *)
        cbn [tolerance_ adjusted_tolerance_ is_unstable_ degree_ degree_age_ polynomials_ last_accessed_polynomial_ first_time_ last_points_]. intros H. injection H as <- <-.
        unfold inv. cbn [tolerance_ adjusted_tolerance_ is_unstable_ degree_ degree_age_ polynomials_ last_accessed_polynomial_ first_time_ last_points_]. fold k.
        split; [exact G |]. split; [exact T |]. split; [exact FT |]. split; [exact ST |]. split; [exact C |]. split.
        { rewrite skipn_app, LP. replace (8 * k - length l)%nat with O by lia. reflexivity. }
        split; [intros X; destruct l; discriminate |]. split; [intros _; rewrite app_length; cbn [length]; lia |].
        intros i t0 p A. apply approximates_more. exact (AP i t0 p A).
  Qed.
  Lemma inv_append_all : forall m tol l s s', inv tol l s -> append_all newhall spaced s m = Some s' -> inv tol (l ++ m) s'.
  Proof.
    induction m as [|[t q] m IH]; intros tol l s s' H.
    - cbn. intros E. injection E as <-. rewrite app_nil_r. exact H.
    - cbn [append_all]. destruct (Append newhall spaced s t q) as [[s1 st] |] eqn:A; [| discriminate]. intros E.
      replace (l ++ (t, q) :: m) with ((l ++ [(t, q)]) ++ m) by (rewrite <- app_assoc; reflexivity). apply (IH tol _ s1 s'); [| exact E]. exact (inv_append _ _ _ _ _ _ _ H A).
  Qed.
  Theorem inv_reachable : forall tol m s, 0 < tol < max_length / 2 -> append_all newhall spaced (New tol) m = Some s -> inv tol m s.
  Proof. intros tol m s T H. exact (inv_append_all m tol [] _ s (inv_new tol T) H). Qed.

  (** The polynomials are only appended. *)
  Lemma append_grows : forall s t q s' st, Append newhall spaced s t q = Some (s', st) -> exists x, polynomials_ s' = polynomials_ s ++ x.
  Proof.
    intros s t q s' st. unfold Append. destruct (_ && _); [| discriminate]. cbn [last_points_]. destruct (last_points_ s) as [|[a b] l].
    - intros H. injection H as <- <-. exists []. rewrite app_nil_r. reflexivity.
    - destruct (Nat.eqb _ _).
      + unfold ComputeBestNewhallApproximation. match goal with |- context [best_fit newhall ?x ?y ?z ?w] => generalize (best_fit newhall x y z w) end. intros f H. injection H as <- <-.
        cbn [polynomials_]. eexists. reflexivity.
      + intros H. injection H as <- <-. exists []. rewrite app_nil_r. reflexivity.
  Qed.
  Lemma append_all_grows : forall m s s', append_all newhall spaced s m = Some s' -> exists x, polynomials_ s' = polynomials_ s ++ x.
  Proof.
    induction m as [|[t q] m IH]; intros s s'; cbn [append_all].
    - intros H. injection H as <-. exists []. rewrite app_nil_r. reflexivity.
    - destruct (Append newhall spaced s t q) as [[s1 st] |] eqn:A; [| discriminate]. intros H. destruct (IH _ _ H) as [x ->]. destruct (append_grows _ _ _ _ _ A) as [y ->].
      exists (y ++ x). rewrite app_assoc. reflexivity.
  Qed.

  (** Points separated by the step may always be appended. *)
  Lemma append_defined : forall tol l s t p, inv tol l s -> steps (l ++ [(t, p)]) -> exists s' b, Append newhall spaced s t p = Some (s', b).
  Proof.
    intros tol l s t p (_ & _ & F & _ & _ & K) St. cbv zeta in K. destruct K as (LP & _ & L & _). unfold Append.
    assert (C : match first_time_ s, rev (last_points_ s) with Some _, (t0, _) :: _ => spaced t0 t | Some _, [] => false | None, _ => true end && Nat.leb (length (last_points_ s)) divisions = true).
    { apply andb_true_intro. split.
      - rewrite F. destruct l as [|[t0 q0] l']; [reflexivity |]. specialize (L ltac:(discriminate)).
        destruct (rev (last_points_ s)) as [|[u r] m] eqn:R.
        + assert (X : length (rev (last_points_ s)) = O) by (rewrite R; reflexivity). rewrite rev_length, LP, skipn_length in X. lia.
        + assert (Q : last_points_ s = rev m ++ [(u, r)]) by (rewrite <- (rev_involutive (last_points_ s)), R; reflexivity).
          set (l := (t0, q0) :: l') in *. apply (St (length l - 1)%nat u r t p).
          * rewrite nth_error_app1 by lia. replace (length l - 1)%nat with (8 * length (polynomials_ s) + (length l - 1 - 8 * length (polynomials_ s)))%nat by lia.
            rewrite <- nth_skipn, <- LP, Q. assert (Y : length (last_points_ s) = length (rev m ++ [(u, r)])) by (rewrite Q; reflexivity).
            rewrite LP, skipn_length, app_length in Y. cbn [length] in Y. rewrite nth_error_app2 by lia. replace (_ - _)%nat with O by lia. reflexivity.
          * rewrite nth_error_app2 by lia. replace (_ - _)%nat with O by lia. reflexivity.
      - apply Nat.leb_le. rewrite LP, skipn_length. unfold divisions. destruct l; [cbn; lia |]. specialize (L ltac:(discriminate)). lia. }
    rewrite C. cbv zeta. cbn [last_points_].
    destruct (match last_points_ s with [] => _ | _ => _ end) as [[s1 b] lp]. eexists. exists b. reflexivity.
  Qed.
  Lemma append_all_defined : forall m tol l s, inv tol l s -> steps (l ++ m) -> exists s', append_all newhall spaced s m = Some s'.
  Proof.
    induction m as [|[t p] m IH]; intros tol l s I St; [exists s; reflexivity |].
    assert (A : l ++ (t, p) :: m = (l ++ [(t, p)]) ++ m) by (rewrite <- app_assoc; reflexivity). rewrite A in St.
    assert (St1 : steps (l ++ [(t, p)])).
    { intros i a q u r X Y. apply (St i a q u r); (rewrite nth_error_app1; [assumption |]); apply nth_error_Some; congruence. }
    destruct (append_defined tol l s t p I St1) as (s' & b & E). cbn [append_all]. rewrite E. exact (IH tol _ s' (inv_append _ _ _ _ _ _ _ I E) St).
  Qed.
  Theorem append_all_iff : forall tol l, 0 < tol < max_length / 2 -> (exists s, append_all newhall spaced (New tol) l = Some s) <-> steps l.
  Proof.
    intros tol l T. split.
    - intros [s H]. exact (proj1 (proj2 (proj2 (proj2 (inv_reachable tol l s T H))))).
    - intros St. exact (append_all_defined l tol [] (New tol) (inv_new tol T) St).
  Qed.
End Proofs.
