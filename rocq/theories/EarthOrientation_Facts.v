From Coq Require Import ZArith Bool List QArith Qabs Lia Lqa.
From Verif Require Import Date_Model DateText_Model TimeScales_Model EarthOrientation_Tables EarthOrientation_Model EarthOrientation_Proofs EarthOrientation_Check.
Import ListNotations.
Open Scope Q_scope.

Lemma eps_bounds : 0 <= eps < 1.
Proof. unfold eps. split; [discriminate|reflexivity]. Qed.
Lemma steep_c02 : steep eps (map c02_point (c02 early_entries late_entries)).
Proof. rewrite all_c02. apply steepb_ok, check_c02. Qed.
Lemma late_fact : exists e r front r', late_entries = e :: r /\ eop_c04 = front :: r' /\ fst (c04_point front) < fst (c02_point e).
Proof.
  pose proof check_late as H. unfold late_check in H. destruct late_entries as [|e r]; [discriminate|]. destruct eop_c04 as [|f r']; [discriminate|].
  exists e, r, f, r'. split; [reflexivity|]. split; [reflexivity|]. apply Qnot_le_lt. intros X. apply Qle_bool_iff in X. rewrite X in H. discriminate.
Qed.
Lemma early_fact : early_entries <> [].
Proof. pose proof check_lengths as H. unfold lengths in H. intros E. rewrite E in H. discriminate. Qed.
Lemma long_fact : (2 <= length eop_c04)%nat.
Proof. pose proof check_lengths as H. unfold lengths in H. apply andb_prop in H as [_ H]. apply Nat.leb_le, H. Qed.
Lemma ends_fact : exists f e b, nth_error early_entries 0 = Some f /\ nth_error eop_c04 0 = Some e /\ nth_error eop_c04 (length eop_c04 - 1) = Some b /\
  fst (c02_point f) == first_c02 /\ fst (c04_point e) == front_c04 /\ fst (c04_point b) == back_c04 /\ tt_of b == back_tt.
Proof.
  pose proof check_ends as H. unfold ends in H. destruct (nth_error early_entries 0) as [f|]; [|discriminate]. destruct (nth_error eop_c04 0) as [e|]; [|discriminate].
  destruct (nth_error eop_c04 (length eop_c04 - 1)) as [b|]; [|discriminate]. apply andb_prop in H as [H H4]. apply andb_prop in H as [H H3]. apply andb_prop in H as [H1 H2].
  apply Qeq_bool_iff in H1, H2, H3, H4. exists f, e, b. split; [reflexivity|]. split; [reflexivity|]. split; [reflexivity|]. split; [exact H1|]. split; [exact H2|]. split; [exact H3|exact H4].
Qed.
Lemma covered_ok u : covered early_entries eop_c04 u <-> first_c02 <= u < back_c04.
Proof.
  destruct ends_fact as (f & e & b & F & _ & B & EF & _ & EB & _). rewrite <- EF, <- EB. unfold covered. split.
  - intros [(f' & F' & L) (b' & B' & M)]. rewrite F in F'. rewrite B in B'. injection F' as <-. injection B' as <-. split; assumption.
  - intros [L M]. split; [exists f; split; assumption|exists b; split; assumption].
Qed.
Lemma defined u : first_c02 <= u < back_c04 -> exists q, FromUT1 experimental_eop_c02 eop_c04 u = Value q.
Proof.
  intros C. apply covered_ok in C. rewrite <- all_c02.
  destruct (from_ut1 eps early_entries late_entries eop_c04 steep_c02 steep_points check_c04 late_fact long_fact u C) as (q & E & _). exists q. exact E.
Qed.
Lemma slow a b qa qb : first_c02 <= a -> a <= b -> b < back_c04 ->
  FromUT1 experimental_eop_c02 eop_c04 a = Value qa -> FromUT1 experimental_eop_c02 eop_c04 b = Value qb -> Qabs ((qb - qa) - (b - a)) <= (1 # 10000000) * (b - a).
Proof.
  intros A L B. rewrite <- all_c02. assert (CA : covered early_entries eop_c04 a) by (apply covered_ok; split; lra). assert (CB : covered early_entries eop_c04 b) by (apply covered_ok; split; lra).
  exact (rate eps early_entries late_entries eop_c04 eps_bounds steep_c02 steep_points check_c04 late_fact long_fact a b qa qb CA CB L).
Qed.
Lemma at_entries i e : (i + 1 < length eop_c04)%nat -> nth_error eop_c04 i = Some e ->
  exists utc u q t, c04_utc e = Value utc /\ c04_ut1 e = Value u /\ u == TimeSince20000101T120000Z utc + c04_ut1_minus_utc e /\
    FromUT1 experimental_eop_c02 eop_c04 u = Value q /\ DateTimeAsUTC utc = Some t /\ q == t.
Proof.
  intros L E. destruct (good_entry eop_c04 check_c04 e (nth_error_In _ _ E)) as (utc & u & v & t & U & W & V & T & P & ET & _).
  pose proof (proj1 (forallb_forall _ _) check_utc e (nth_error_In _ _ E)) as G. unfold utc_good in G. rewrite U in G. apply Z.leb_le in G. pose proof (midnight_utc e utc t U G T) as D.
  destruct (nth_error eop_c04 (i + 1)) as [e'|] eqn:E'; [|apply nth_error_None in E'; lia].
  pose proof (c04_order eps early_entries eop_c04 steep_points long_fact i (i + 1) e e' ltac:(lia) E E') as O.
  pose proof (point_c04 early_entries eop_c04 long_fact i e E) as K1. pose proof (point_c04 early_entries eop_c04 long_fact (i + 1) e' E') as K2. rewrite P in K1, O. cbn [fst] in O.
  destruct (c04_point e') as [u' v'] eqn:P'. cbn [fst] in O. replace (length early_entries + (i + 1))%nat with (S (length early_entries + i)) in K2 by lia.
  assert (C : covered early_entries eop_c04 u).
  { destruct ends_fact as (f & e0 & b & F & Z0 & B & EF & EZ & EB & _). split.
    - exists f. split; [exact F|]. rewrite EF. assert (Q0 : fst (c04_point e0) <= u).
      { destruct i as [|i]; [rewrite Z0 in E; injection E as <-; rewrite P; apply Qle_refl|].
        pose proof (c04_order eps early_entries eop_c04 steep_points long_fact 0 (S i) e0 e ltac:(lia) Z0 E) as X. rewrite P in X. apply Qlt_le_weak, X. }
      rewrite EZ in Q0. eapply Qle_trans; [|exact Q0]. unfold first_c02, front_c04. discriminate.
    - exists b. split; [exact B|]. pose proof (c04_order eps early_entries eop_c04 steep_points long_fact i (length eop_c04 - 1) e b ltac:(lia) E B) as X. rewrite P in X. exact X. }
  destruct (from_ut1 eps early_entries late_entries eop_c04 steep_c02 steep_points check_c04 late_fact long_fact u C) as (q & EQ & VQ). rewrite all_c02 in EQ.
  exists utc, u, q, t. split; [exact U|]. split; [exact W|]. split.
  { unfold c04_ut1 in W. rewrite U in W. cbn [andThen] in W. assert (VI : forall a b : Q, Value a = Value b -> a = b) by congruence. apply VI in W. rewrite W. reflexivity. }
  split; [exact EQ|]. split; [exact D|].
  rewrite VQ, ET, (broken_at _ _ steep_points _ u v u' v' u K1 K2) by (split; [apply Qle_refl|exact O]). rewrite line_left. reflexivity.
Qed.
Lemma round_trip u q : front_c04 <= u < back_c04 -> FromUT1 experimental_eop_c02 eop_c04 u = Value q ->
  exists j f, UT1JulianDay eop_c04 q = Value (j, f) /\ (inject_Z j + f) * inject_Z 86400 == u /\ Qabs f <= (1 # 2) + (1 # 86400).
Proof.
  intros [L M]. rewrite <- all_c02. destruct ends_fact as (f & e0 & b & F & Z0 & B & EF & EZ & EB & _).
  assert (C : covered early_entries eop_c04 u).
  { apply covered_ok. split; [|exact M]. eapply Qle_trans; [|exact L]. unfold first_c02, front_c04. discriminate. }
  apply (inverse eps early_entries late_entries eop_c04 eps_bounds steep_c02 steep_points check_c04 check_days late_fact long_fact u q e0 C Z0). rewrite EZ. exact L.
Qed.
Lemma checked x : is_leap_second (time_of x) = false ->
  if Qle_bool first_c02 (TimeSince20000101T120000Z x) && negb (Qle_bool back_c04 (TimeSince20000101T120000Z x))
  then exists q, DateTimeAsUT1 experimental_eop_c02 eop_c04 x = Value q else DateTimeAsUT1 experimental_eop_c02 eop_c04 x = Failed.
Proof.
  intros N. rewrite <- all_c02.
  destruct (as_ut1 eps early_entries late_entries eop_c04 steep_c02 steep_points check_c04 late_fact early_fact long_fact x N) as [(C & q & E & _)|(C & E)]; rewrite covered_ok in C.
  - replace (_ && _) with true; [exists q; exact E|]. symmetry. apply andb_true_iff. split; [apply Qle_bool_iff, C|]. apply negb_true_iff, not_true_iff_false. intros X. apply Qle_bool_iff in X. lra.
  - replace (_ && _) with false; [exact E|]. symmetry. apply not_true_iff_false. intros X. apply andb_true_iff in X as [X Y]. apply C. split; [apply Qle_bool_iff, X|].
    apply Qnot_le_lt. intros Z. apply Qle_bool_iff in Z. rewrite Z in Y. discriminate.
Qed.
Lemma beyond u tt : back_c04 <= u -> back_tt <= tt ->
  FromUT1 experimental_eop_c02 eop_c04 u = OutOfBounds /\ EarthRotationAngle eop_c04 tt = OutOfBounds.
Proof.
  intros L M. rewrite <- all_c02. destruct ends_fact as (f & e0 & b & F & Z0 & B & EF & EZ & EB & ET). split.
  - apply (ut1_past_end eps early_entries late_entries eop_c04 steep_points check_c04 long_fact b u B). rewrite EB. exact L.
  - unfold EarthRotationAngle. rewrite (rotation_past_end eps early_entries eop_c04 eps_bounds steep_points check_c04 check_days long_fact b tt B); [reflexivity|]. rewrite ET. exact M.
Qed.
(** 1962-01-01T00:00:00 UTC, in TT. *)
Definition front_tt : Q := -1199188765970142 # 1000000.
Lemma front_tt_fact : exists e q, nth_error eop_c04 0 = Some e /\ c04_tt e = Value q /\ q == front_tt.
Proof.
  assert (H : match nth_error eop_c04 0 with Some e => match c04_tt e with Value q => Qeq_bool q front_tt | _ => false end | None => false end = true) by (vm_compute; reflexivity).
  destruct (nth_error eop_c04 0) as [e|]; [|discriminate]. destruct (c04_tt e) as [q| |] eqn:E; try discriminate. apply Qeq_bool_iff in H.
  exists e, q. split; [reflexivity|]. split; [exact E|exact H].
Qed.
Lemma before_eop tt : tt < front_tt -> EarthRotationAngle eop_c04 tt = Failed.
Proof.
  intros L. destruct front_tt_fact as (e & q & E & Q1 & Q2). unfold EarthRotationAngle, UT1JulianDay, read. rewrite E. cbn [andThen]. rewrite Q1. cbn [andThen].
  destruct (Qle_bool q tt) eqn:Z; [|reflexivity]. apply Qle_bool_iff in Z. exfalso. rewrite Q2 in Z. apply (Qlt_not_le _ _ L Z).
Qed.
