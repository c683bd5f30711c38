(* The reduction of Nguyễn and Stehlé in exact arithmetic, for independent columns:
   the measures. *)
From Coq Require Import ZArith QArith Qround Qcanon Qcabs List Bool Arith Lia Lqa.
From Verif Require Import Matrix_Model Matrix_Spec Matrix_Proofs.
From Verif Require Import Lattice_Model Lattice_Spec Lattice_Proofs Lattice_Proofs2.
From Verif Require Import Lattice_Proofs3.
From Verif Require Import NguyenStehle_Model NguyenStehle_Spec NguyenStehle_Proofs.
From Verif Require Import NguyenStehle_Proofs2 NguyenStehle_Proofs3 NguyenStehle_Proofs4.
Import ListNotations.
Local Open Scope nat_scope.

(* ---------------------------------------------------------------- fuel *)

Lemma SizeReduce_more : forall ops fuel fuel' n d k b G f r,
  SizeReduce ops fuel n d k b G f = r -> r <> Unfinished -> fuel <= fuel' ->
  SizeReduce ops fuel' n d k b G f = r.
Proof.
  intros ops fuel; induction fuel as [|fuel IH]; intros fuel' n d k b G f r E N L.
  - cbn [SizeReduce] in E. congruence.
  - destruct fuel' as [|fuel']; [lia|]. cbn [SizeReduce] in E |- *. cbv zeta in E |- *.
    destruct (size_reduced _ _ _); [exact E|].
    destruct (compute_X _ _ _) as [[X p] mu1]. destruct p; [|exact E].
    apply IH; [exact E|exact N|lia].
Qed.

Lemma ns_loop_more : forall ops fuel fuel' n d z k b G f r,
  ns_loop ops fuel n d z k b G f = r -> r <> Unfinished -> fuel <= fuel' ->
  ns_loop ops fuel' n d z k b G f = r.
Proof.
  intros ops fuel; induction fuel as [|fuel IH]; intros fuel' n d z k b G f r E N L.
  - destruct fuel'; cbn [ns_loop] in E |- *; destruct (k <? d); congruence.
  - destruct fuel' as [|fuel']; [lia|]. cbn [ns_loop] in E |- *.
    destruct (k <? d); [|exact E].
    destruct (SizeReduce ops (S fuel) n d k b G f) as [[[b1 G1] f1]| |] eqn:ES; [| |congruence].
    + rewrite (SizeReduce_more ops (S fuel) (S fuel') n d k b G f _ ES) by (discriminate || lia).
      cbv zeta in E |- *.
      destruct (if k =? find_insertion ops k z k f1 then (b1, G1)
                else Insert k (find_insertion ops k z k f1) n d b1 G1) as [b2 G2].
      apply IH; [exact E|exact N|lia].
    + rewrite (SizeReduce_more ops (S fuel) (S fuel') n d k b G f _ ES) by (discriminate || lia).
      exact E.
Qed.

(* -------------------------------------------------------------- weights *)

Definition weight (x : Qc) : nat :=
  if Qclt_le_dec half (Qcabs x) then S (Z.to_nat (Qfloor (this (Qcabs x)))) else 0.

Lemma weight_small : forall x, (Qcabs x <= half)%Qc -> weight x = 0.
Proof.
  intros x H. unfold weight. destruct (Qclt_le_dec half (Qcabs x)) as [L|L]; [|reflexivity].
  exfalso. apply (Qcle_not_lt _ _ H L).
Qed.

Lemma floor_nonneg : forall x : Q, (0 <= x)%Q -> (0 <= Qfloor x)%Z.
Proof. intros x H. apply (Qfloor_resp_le 0 x). exact H. Qed.

Lemma weight_less : forall x y, (half < Qcabs x)%Qc ->
  (Qcabs y <= half)%Qc \/ (Qcabs y + 1 <= Qcabs x)%Qc -> weight y < weight x.
Proof.
  intros x y Hx H. unfold weight at 2. destruct (Qclt_le_dec half (Qcabs x)) as [L|L];
    [|exfalso; apply (Qcle_not_lt _ _ L Hx)].
  destruct H as [H|H]; [rewrite weight_small by assumption; lia|].
  unfold weight. destruct (Qclt_le_dec half (Qcabs y)) as [L'|L']; [|lia].
  apply -> Nat.succ_lt_mono.
  pose proof (Qcabs_nonneg y) as Py. revert H Py.
  generalize (Qcabs x) as a, (Qcabs y) as c. clear. intros a c. toQ. intros H Py.
  pose proof (Qfloor_le (this c)) as F1. pose proof (Qlt_floor (this a)) as F2.
  assert (K : (Qfloor (this c) + 1 < Qfloor (this a) + 1)%Z).
  { rewrite Zlt_Qlt. apply (Qle_lt_trans _ (this a)); [|exact F2].
    rewrite inject_Z_plus. change (inject_Z 1) with 1%Q. lra. }
  pose proof (floor_nonneg (this c) Py) as P. apply Z2Nat.inj_lt; lia.
Qed.

Lemma top_index : forall k (f : nat -> Qc),
  (exists i, i < k /\ (half < Qcabs (f i))%Qc /\
     forall l, i < l < k -> (Qcabs (f l) <= half)%Qc) \/
  (forall j, j < k -> (Qcabs (f j) <= half)%Qc).
Proof.
  induction k as [|k IH]; intros f; [right; intros; lia|].
  destruct (Qclt_le_dec half (Qcabs (f k))) as [L|L].
  - left. exists k. split; [lia|]. split; [exact L|]. intros; lia.
  - destruct (IH f) as [(i & Hi & Li & Hl)|H].
    + left. exists i. split; [lia|]. split; [exact Li|]. intros l Hl'.
      destruct (Nat.eq_dec l k) as [->|]; [exact L|apply Hl; lia].
    + right. intros j Hj. destruct (Nat.eq_dec j k) as [->|]; [exact L|apply H; lia].
Qed.

Lemma SizeReduce_terminates : forall n d k b G f, 0 < k < d -> k <= 55 ->
  is_gram n d b G -> (forall j, j < k -> star2 n (to_Qc (zof b)) j <> 0%Qc) ->
  good n k (zof b) f ->
  (forall l m, l < m < k -> (Qcabs (mu n (to_Qc (zof b)) l m) <= 1)%Qc) ->
  exists fuel r, SizeReduce O_ fuel n d k b G f = Done r.
Proof.
  intros n d k b G f Hk H55.
  cut (forall g b G f, (forall q, q < k -> weight (mu n (to_Qc (zof b)) (k - 1 - q) k) = g q) ->
    is_gram n d b G -> (forall j, j < k -> star2 n (to_Qc (zof b)) j <> 0%Qc) ->
    good n k (zof b) f ->
    (forall l m, l < m < k -> (Qcabs (mu n (to_Qc (zof b)) l m) <= 1)%Qc) ->
    exists fuel r, SizeReduce O_ fuel n d k b G f = Done r).
  { intros K. apply (K (fun q => weight (mu n (to_Qc (zof b)) (k - 1 - q) k))). reflexivity. }
  clear b G f. intros g. pattern g. apply (lex_ind k). clear g.
  intros g IH b G f Hg HG NZ HF HM.
  destruct (cholesky_spec n d k b G f Hk HG NZ HF) as [C1 C2].
  destruct (size_reduced O_ k (fmu O_ (CholeskyFactorization O_ k G f))) eqn:ES.
  { exists 1. eexists. cbn [SizeReduce]. cbv zeta. rewrite ES. reflexivity. }
  set (f1 := CholeskyFactorization O_ k G f) in *.
  destruct C2 as (_ & C2 & _).
  destruct (top_index k (fun i => mu n (to_Qc (zof b)) i k)) as [(i & Hi & Li & Hl)|H].
  2:{ exfalso. assert (T : size_reduced O_ k (fmu O_ f1) = true); [|congruence].
      apply size_reduced_spec. intros j Hj. rewrite C2 by assumption.
      eapply Qcle_trans; [apply H; assumption|]. discriminate. }
  destruct (compute_X O_ k (fmu O_ f1)) as [[X p] mu1] eqn:EX.
  pose proof (compute_X_spec k _ X p mu1 EX) as CX.
  set (mm := fun l m => mu n (to_Qc (zof b)) l m).
  assert (HX : forall l, l < k -> nth l X 0%Z = saturating_round O_
    (mm l k - above k l (fun m => of_Z (nth m X 0%Z) * mm l m))%Qc).
  { intros l Hlk. destruct (CX l Hlk) as [E _]. rewrite E at 1. f_equal.
    rewrite C2 by assumption. unfold mm. f_equal. apply sum_ext. intros m Hm.
    destruct (Nat.ltb_spec l m); [|reflexivity]. destruct C1 as [_ C1].
    rewrite C1 by lia. reflexivity. }
  pose proof (decreases k i X mm HX HM Hl H55 Hi) as D.
  pose proof (fun l => stays_reduced k i X mm HX HM Hl l H55) as ST.
  assert (Hp : p = true).
  { destruct p; [reflexivity|exfalso].
    assert (EE : err k X mm i = 0%Qc).
    { apply sum_0. intros m Hm. destruct (i <? m); [|reflexivity].
      destruct (CX m Hm) as [_ Z]. rewrite (Z eq_refl), of_Z_0. ring. }
    destruct (CX i Hi) as [_ Z]. rewrite EE, (Z eq_refl), of_Z_0 in D.
    replace (mm i k - 0 - 0)%Qc with (mm i k) in D by ring.
    destruct D as [D|D]; [apply (Qcle_not_lt _ _ D Li)|].
    revert D. generalize (Qcabs (mm i k)) as a. clear. intros a. toQ. intros. lra. }
  subst p.
  pose proof (update_b_star n k X b) as SS.
  destruct (update_b_spec n d k X b ltac:(lia)) as [UB _].
  pose proof (fun i Hi => update_b_mu n d k X b i ltac:(lia) Hi NZ) as MU.
  destruct (IH (fun q => weight (mu n (to_Qc (zof (update_b n k X b))) (k - 1 - q) k)))
    with (b := update_b n k X b) (G := update_G d k X G)
         (f := mkFactors O_ (fr O_ f1) mu1 (fs O_ f1)) as (fuel & r & E).
  - exists (k - 1 - i). split; [lia|]. replace (k - 1 - (k - 1 - i)) with i by lia. split.
    + rewrite <- Hg by lia. replace (k - 1 - (k - 1 - i)) with i by lia.
      rewrite MU by assumption. apply weight_less; [exact Li|exact D].
    + intros q Hq. rewrite <- Hg by lia.
      rewrite (weight_small (mu n (to_Qc (zof b)) (k - 1 - q) k)) by (apply Hl; lia).
      apply weight_small. rewrite MU by lia. apply ST. lia.
  - reflexivity.
  - apply update_G_spec; [lia|assumption].
  - intros j Hj. rewrite (star2_same n _ _ j SS). apply NZ. assumption.
  - apply (good_ext n k b).
    + intros i' c Hi' Hc. rewrite UB by assumption.
      destruct (Nat.eqb_spec c k); [lia|reflexivity].
    + destruct C1 as [C1 C1']. split; cbn [fr fmu]; [exact C1|].
      intros j i' Hij. rewrite (compute_X_other k _ X _ mu1 EX) by lia. apply C1'. assumption.
  - intros l m Hlm. rewrite (mu_rows n (to_Qc (zof (update_b n k X b))) (to_Qc (zof b)));
      [apply HM; assumption|lia|].
    intros c i' Hc Hi'. unfold to_Qc. rewrite UB by assumption.
    destruct (Nat.eqb_spec c k); [lia|reflexivity].
  - exists (S fuel), r. cbn [SizeReduce]. cbv zeta. fold f1. rewrite ES, EX. exact E.
Qed.

Lemma ns_loop_terminates : forall n d k b G f, d <= 56 -> 0 < k ->
  is_gram n d b G -> independent n d (zof b) -> good n k (zof b) f ->
  reduced exact_eta exact_delta n k (zof b) ->
  exists fuel b', ns_loop O_ fuel n d 0 k b G f = Done b'.
Proof.
  intros n d k b G f Hd Hk HG HI HF HR.
  cut (forall g b G f k, (forall q, q < d -> measure n (zof b) q = g q) -> 0 < k ->
    is_gram n d b G -> independent n d (zof b) -> good n k (zof b) f ->
    reduced exact_eta exact_delta n k (zof b) ->
    exists fuel b', ns_loop O_ fuel n d 0 k b G f = Done b').
  { intros K. apply (K (measure n (zof b))); assumption || reflexivity. }
  clear b G f k Hk HG HI HF HR. intros g. pattern g. apply (lex_ind d). clear g.
  intros g IH b G f k.
  remember (d - k) as t eqn:Et. revert b G f k Et.
  induction t as [t IHt] using lt_wf_ind. intros b G f k Et Hg Hk HG HI HF HR.
  destruct (le_lt_dec d k) as [L|L].
  { exists 0, b. cbn [ns_loop]. destruct (Nat.ltb_spec k d); [lia|reflexivity]. }
  destruct (SizeReduce_terminates n d k b G f) as (fuel1 & [[b1 G1] f1] & E1); try assumption; try lia.
  { intros j Hj. apply (independent_star n d); [assumption|lia]. }
  { intros l m Hlm. eapply Qcle_trans; [apply (proj1 HR); lia|]. discriminate. }
  set (k2 := find_insertion O_ k 0 k f1).
  destruct (if k =? k2 then (b1, G1) else Insert k k2 n d b1 G1) as [b2 G2] eqn:EI.
  destruct (step_exact fuel1 n d k b G f b1 G1 f1 b2 G2 ltac:(lia) HG HI HF HR E1 EI)
    as (K1 & K2 & K3 & K4 & K5 & K6 & K7 & K8).
  fold k2 in K1, K4, K5, K6, K7, K8.
  assert (T : exists fuel b', ns_loop O_ fuel n d 0 (S k2) b2 G2 (move_factors O_ 0 k2 k f1) = Done b').
  { destruct (Nat.eq_dec k2 k) as [Ek|Nk].
    - apply (IHt (d - S k2)); try assumption; try lia.
      intros q Hq. rewrite <- Hg by assumption. apply measure_ext.
      intros c i _ Hi. apply K7; assumption.
    - apply (IH (measure n (zof b2))); try assumption; try lia.
      exists k2. split; [lia|]. split.
      + rewrite <- Hg by lia. apply measure_lt; [|apply K8; lia].
        intros; apply K6; assumption.
      + intros q Hq. rewrite <- Hg by lia. apply measure_ext. intros; apply K6; lia. }
  destruct T as (fuel2 & b' & E2). exists (S (fuel1 + fuel2)), b'. cbn [ns_loop].
  destruct (Nat.ltb_spec k d); [|lia].
  rewrite (SizeReduce_more O_ fuel1 _ n d k b G f _ E1) by (discriminate || lia).
  cbv zeta. fold k2. rewrite EI, (independent_column n d) by (try assumption; lia).
  replace (Nat.max 1 (S k2)) with (S k2) by lia.
  apply (ns_loop_more O_ fuel2); [exact E2|discriminate|lia].
Qed.

Lemma ns_terminates : forall n d L junkG junk, d <= 56 -> independent n d (zof L) ->
  exists fuel b, NguyenStehle O_ fuel n d L junkG junk = Done b.
Proof.
  intros n d L junkG junk Hd HI. unfold NguyenStehle. cbv zeta.
  destruct (le_lt_dec d 1) as [H1|H1].
  { exists 0, L. cbn [ns_loop]. destruct (Nat.ltb_spec 1 d); [lia|reflexivity]. }
  pose proof (Gram_spec n d L junkG) as HG.
  apply ns_loop_terminates; [assumption|lia|exact HG|exact HI| |].
  - split; cbn [fr fmu]; [|intros; lia]. intros j i Hij. assert (j = 0 /\ i = 0) by lia.
    destruct H as [-> ->]. rewrite fget_fset. cbn [Nat.eqb andb].
    change (f_of_Z O_ (zget (Gram n d L junkG) 0 0)) with (of_Z (zof (Gram n d L junkG) 0 0)).
    rewrite HG by lia. rewrite of_Z_gram. rewrite star_column. cbn [sum]. qring.
  - split; intros; lia.
Qed.

Lemma ns_no_check : forall fuel n d L junkG junk, d <= 56 -> independent n d (zof L) ->
  NguyenStehle O_ fuel n d L junkG junk <> CheckFailed.
Proof.
  intros fuel n d L junkG junk Hd HI E.
  destruct (ns_terminates n d L junkG junk Hd HI) as (fuel' & b & E').
  unfold NguyenStehle in E, E'.
  apply (ns_loop_more O_ fuel (fuel + fuel')) in E; [|discriminate|lia].
  apply (ns_loop_more O_ fuel' (fuel + fuel')) in E'; [|discriminate|lia].
  congruence.
Qed.
