(* The reduction of Nguyễn and Stehlé in exact arithmetic, for independent columns:
   the iterations. *)
From Coq Require Import ZArith QArith Qcanon Qcabs List Bool Arith Lia Lqa.
From Verif Require Import Matrix_Model Matrix_Spec Matrix_Proofs.
From Verif Require Import Lattice_Model Lattice_Spec Lattice_Proofs Lattice_Proofs2.
From Verif Require Import Lattice_Proofs3.
From Verif Require Import NguyenStehle_Model NguyenStehle_Spec NguyenStehle_Proofs.
From Verif Require Import NguyenStehle_Proofs2.
Import ListNotations.
Local Open Scope nat_scope.

(* -------------------------------------------------------- independence *)

Definition keeps_independence (m n : nat) (v v' : zmatrix) :=
  independent m n v -> independent m n v'.

Lemma keeps_closed : forall m n, closed m (keeps_independence m n).
Proof.
  intros m n. split.
  - intros v v' E H z Hz. apply H. intros i Hi. rewrite <- (Hz i Hi). apply zsum_ext.
    intros j _. rewrite E by assumption. reflexivity.
  - intros u v w H1 H2 H. apply H2, H1, H.
Qed.

Lemma keeps_subtract : forall m n v k j r, j < n -> k < n -> j <> k ->
  keeps_independence m n v (subtract_column v k j r).
Proof.
  intros m n v k j r Hj Hk N H z Hz.
  assert (K : forall c, c < n -> (if c =? j then (z j - r * z k)%Z else z c) = 0%Z).
  { apply H. intros i Hi. rewrite <- combination_subtract by assumption. apply Hz. assumption. }
  assert (Zk : z k = 0%Z).
  { specialize (K k Hk). destruct (Nat.eqb_spec k j); [congruence|exact K]. }
  intros c Hc. specialize (K c Hc). destruct (Nat.eqb_spec c j) as [Ec|Ec]; [|exact K].
  rewrite Zk in K. rewrite Ec. lia.
Qed.

Lemma keeps_swap : forall m n v a, S a < n ->
  keeps_independence m n v (swap_columns v a (S a)).
Proof.
  intros m n v a Ha H z Hz.
  assert (K : forall c, c < n ->
    (if c =? a then z (S a) else if c =? S a then z a else z c) = 0%Z).
  { apply H. intros i Hi. rewrite <- combination_swap by lia. apply Hz. assumption. }
  intros c Hc.
  pose proof (K a ltac:(lia)) as Ka. rewrite Nat.eqb_refl in Ka.
  pose proof (K (S a) Ha) as Kb. rewrite Nat.eqb_refl in Kb.
  destruct (Nat.eqb_spec (S a) a); [lia|].
  specialize (K c Hc). destruct (Nat.eqb_spec c a) as [Ec|Ec]; [rewrite Ec; exact Kb|].
  destruct (Nat.eqb_spec c (S a)) as [Ec'|Ec']; [rewrite Ec'; exact Ka|exact K].
Qed.

(* A vector of the orthogonalization is a combination of the columns. *)
Lemma star_combination : forall m A d j, j < d ->
  exists c : nat -> Qc, c j = 1%Qc /\
    forall i, star m A j i = sum d (fun l => c l * A i l)%Qc.
Proof.
  intros m A d j. induction j as [j IH] using lt_wf_ind. intros Hj.
  assert (C : exists c : nat -> nat -> Qc, forall l, l < j ->
    forall i, star m A l i = sum d (fun p => c l p * A i p)%Qc).
  { clear - IH Hj. assert (K : forall q, q <= j -> exists c : nat -> nat -> Qc,
      forall l, l < q -> forall i, star m A l i = sum d (fun p => c l p * A i p)%Qc).
    { induction q as [|q IHq]; intros Hq.
      - exists (fun _ _ => 0%Qc). intros; lia.
      - destruct (IHq ltac:(lia)) as [c Hc]. destruct (IH q ltac:(lia) ltac:(lia)) as (c' & _ & Hc').
        exists (fun l => if l =? q then c' else c l). intros l Hl.
        destruct (Nat.eqb_spec l q) as [->|]; [exact Hc'|apply Hc; lia]. }
    apply (K j). lia. }
  destruct C as [c Hc].
  (* The coefficient of the column j in the other vectors vanishes by construction. *)
  assert (C' : exists c : nat -> nat -> Qc, (forall l, l < j -> c l j = 0%Qc) /\
    forall l, l < j -> forall i, star m A l i = sum d (fun p => c l p * A i p)%Qc).
  { assert (T : forall l, l < j -> exists c : nat -> Qc,
      (forall p, l < p -> c p = 0%Qc) /\
      forall i, star m A l i = sum d (fun p => c p * A i p)%Qc).
    { clear - Hj. intros l. induction l as [l IH] using lt_wf_ind. intros Hl.
      assert (K : forall q, q <= l -> exists c : nat -> Qc,
        (forall p, l <= p -> c p = 0%Qc) /\
        forall i, sum q (fun x => mu m A x l * star m A x i)%Qc
                  = sum d (fun p => c p * A i p)%Qc).
      { induction q as [|q IHq]; intros Hq.
        - exists (fun _ => 0%Qc). split; [reflexivity|]. intros i. cbn [sum].
          symmetry. apply sum_0. intros; ring.
        - destruct (IHq ltac:(lia)) as (c1 & Z1 & E1).
          destruct (IH q ltac:(lia) ltac:(lia)) as (c2 & Z2 & E2).
          exists (fun p => c1 p + mu m A q l * c2 p)%Qc. split.
          + intros p Hp. rewrite Z1, Z2 by lia. ring.
          + intros i. cbn [sum]. rewrite E1, E2, <- sum_scale, <- sum_plus.
            apply sum_ext. intros; ring. }
      destruct (K l (Nat.le_refl l)) as (c & Z & E).
      exists (fun p => if p =? l then 1%Qc else (- c p)%Qc). split.
      - intros p Hp. destruct (Nat.eqb_spec p l); [lia|]. rewrite Z by lia. ring.
      - intros i. rewrite star_eq, E.
        rewrite (sum_ext d (fun p => (if p =? l then 1 else - c p) * A i p)%Qc
                   (fun p => (if p =? l then A i l else 0) - c p * A i p)%Qc).
        + rewrite sum_minus. f_equal. symmetry.
          rewrite (sum_single d l (fun p => if p =? l then A i l else 0%Qc));
            [rewrite Nat.eqb_refl; reflexivity|lia|].
          intros p _ Np. destruct (Nat.eqb_spec p l); [contradiction|reflexivity].
        + intros p _. destruct (Nat.eqb_spec p l) as [->|]; [rewrite Z by lia|]; ring. }
    clear - T. assert (K : forall q, q <= j -> exists c : nat -> nat -> Qc,
      (forall l, l < q -> c l j = 0%Qc) /\
      forall l, l < q -> forall i, star m A l i = sum d (fun p => c l p * A i p)%Qc).
    { induction q as [|q IHq]; intros Hq.
      - exists (fun _ _ => 0%Qc). split; intros; lia.
      - destruct (IHq ltac:(lia)) as (c & Z & E). destruct (T q ltac:(lia)) as (c' & Z' & E').
        exists (fun l => if l =? q then c' else c l). split; intros l Hl;
          destruct (Nat.eqb_spec l q) as [->|]; [apply Z'; lia|apply Z; lia|exact E'|apply E; lia]. }
    apply (K j). lia. }
  clear c Hc. destruct C' as (c & Z & E).
  exists (fun p => if p =? j then 1%Qc else (- sum j (fun l => mu m A l j * c l p))%Qc). split.
  - rewrite Nat.eqb_refl. reflexivity.
  - intros i. rewrite star_eq.
    rewrite (sum_ext j _ (fun l => sum d (fun p => mu m A l j * c l p * A i p)%Qc)).
    2:{ intros l Hl. rewrite E, <- sum_scale by assumption. apply sum_ext. intros; ring. }
    rewrite sum_exchange.
    rewrite (sum_ext d (fun p => (if p =? j then 1 else - sum j (fun l => mu m A l j * c l p)) * A i p)%Qc
               (fun p => (if p =? j then A i j else 0)
                         - sum j (fun l => mu m A l j * c l p * A i p))%Qc).
    + rewrite sum_minus. f_equal. symmetry.
      rewrite (sum_single d j (fun p => if p =? j then A i j else 0%Qc));
        [rewrite Nat.eqb_refl; reflexivity|assumption|].
      intros p _ Np. destruct (Nat.eqb_spec p j); [contradiction|reflexivity].
    + intros p _. rewrite sum_scale_r. destruct (Nat.eqb_spec p j) as [->|]; [|ring].
      rewrite (sum_0 j (fun l => mu m A l j * c l j)%Qc) by (intros; rewrite Z by assumption; ring).
      ring.
Qed.

Lemma common_denominator : forall d (c : nat -> Qc),
  exists D, D <> 0%Z /\ forall l, l < d -> is_int (of_Z D * c l)%Qc.
Proof.
  induction d as [|d IH]; intros c.
  - exists 1%Z. split; [lia|intros; lia].
  - destruct (IH c) as (D & ND & HD). exists (D * Zpos (Qden (this (c d))))%Z. split; [lia|].
    intros l Hl. rewrite of_Z_mul. destruct (Nat.eq_dec l d) as [->|].
    + replace (of_Z D * of_Z (Zpos (Qden (this (c d)))) * c d)%Qc
        with (of_Z D * (of_Z (Zpos (Qden (this (c d)))) * c d))%Qc by ring.
      apply int_mul; [apply int_Z|]. exists (Qnum (this (c d))).
      apply Qc_is_canon. unfold of_Z. toQ. destruct (this (c d)) as [p q]. cbn [Qnum Qden].
      unfold Qeq, Qmult, inject_Z. cbn [Qnum Qden]. lia.
    + replace (of_Z D * of_Z (Zpos (Qden (this (c d)))) * c l)%Qc
        with (of_Z (Zpos (Qden (this (c d)))) * (of_Z D * c l))%Qc by ring.
      apply int_mul; [apply int_Z|]. apply HD. lia.
Qed.

Lemma int_choice : forall d (c : nat -> Qc), (forall l, l < d -> is_int (c l)) ->
  exists z : nat -> Z, forall l, l < d -> c l = of_Z (z l).
Proof.
  induction d as [|d IH]; intros c H.
  - exists (fun _ => 0%Z). intros; lia.
  - destruct (IH c) as [z Hz]; [intros; apply H; lia|]. destruct (H d ltac:(lia)) as [x Hx].
    exists (fun l => if l =? d then x else z l). intros l Hl.
    destruct (Nat.eqb_spec l d) as [->|]; [exact Hx|apply Hz; lia].
Qed.

Lemma independent_star : forall n d v j, independent n d v -> j < d ->
  star2 n (to_Qc v) j <> 0%Qc.
Proof.
  intros n d v j H Hj Z.
  destruct (star_combination n (to_Qc v) d j Hj) as (c & Cj & Ec).
  destruct (common_denominator d c) as (D & ND & HD).
  destruct (int_choice d (fun l => of_Z D * c l)%Qc HD) as [z Hz].
  assert (K : z j = 0%Z).
  { apply (H z); [|assumption]. intros i Hi. apply of_Z_inj. unfold combination.
    rewrite of_Z_zsum, of_Z_0.
    rewrite (sum_ext d _ (fun l => of_Z D * (c l * to_Qc v i l))%Qc).
    - rewrite sum_scale, <- Ec. rewrite (inner_zero n _ Z i Hi). ring.
    - intros l Hl. rewrite of_Z_mul, <- Hz by assumption. unfold to_Qc. ring. }
  pose proof (Hz j Hj) as E. cbv beta in E. rewrite K, Cj, of_Z_0, Qcmult_1_r in E.
  apply ND. apply of_Z_inj. rewrite E, of_Z_0. reflexivity.
Qed.

Lemma independent_column : forall n d k b, independent n d (zof b) -> k < d ->
  is_zero_column n k b = false.
Proof.
  intros n d k b H Hk. destruct (is_zero_column n k b) eqn:E; [exfalso|reflexivity].
  unfold is_zero_column in E. rewrite forallb_forall in E.
  assert (K : (fun l => if l =? k then 1%Z else 0%Z) k = 0%Z).
  { apply (H (fun l => if l =? k then 1%Z else 0%Z)); [|assumption].
    intros i Hi. unfold combination.
    rewrite (zsum_ext d _ (fun l => if l =? k then zof b i k else 0%Z)).
    - rewrite (zsum_update d (fun _ => 0%Z)), (zsum_0 d (fun _ => 0%Z)) by auto.
      specialize (E i ltac:(apply in_seq; lia)). apply Z.eqb_eq in E.
      rewrite <- (zof_zget b). lia.
    - intros l _. destruct (Nat.eqb_spec l k) as [->|]; ring. }
  cbv beta in K. rewrite Nat.eqb_refl in K. discriminate K.
Qed.

(* ------------------------------------------------------------ insertion *)

Section Inserted.
  Variables (n k k2 : nat) (A1 A2 : matrix).
  Hypothesis Hk : k2 <= k.
  Hypothesis E : forall i c, i < n -> A2 i c = A1 i (inserted k k2 c).

  Lemma E_below : forall i c, i < n -> c < k2 -> A2 i c = A1 i c.
  Proof.
    intros i c Hi Hc. rewrite E by assumption. unfold inserted.
    destruct (Nat.ltb_spec c k2); [reflexivity|lia].
  Qed.
  Lemma E_at : forall i, i < n -> A2 i k2 = A1 i k.
  Proof.
    intros i Hi. rewrite E by assumption. unfold inserted.
    destruct (Nat.ltb_spec k2 k2); [lia|]. rewrite Nat.eqb_refl. reflexivity.
  Qed.
  Lemma star_below : forall c i, c < k2 -> i < n -> star n A2 c i = star n A1 c i.
  Proof. intros c i Hc. apply star_rows. intros; apply E_below; lia. Qed.
  Lemma mu_below : forall l c, l <= c -> c < k2 -> mu n A2 l c = mu n A1 l c.
  Proof. intros l c Hl Hc. apply mu_rows; [assumption|]. intros; apply E_below; lia. Qed.
  Lemma mu_at : forall l, l < k2 -> mu n A2 l k2 = mu n A1 l k.
  Proof.
    intros l Hl. apply coef_ext; intros.
    - apply star_below; assumption.
    - apply E_at; assumption.
  Qed.
  Lemma star_at : forall i, i < n -> star n A2 k2 i = residue n A1 k k2 i.
  Proof.
    intros i Hi. rewrite star_eq, E_at by assumption. unfold residue. f_equal.
    apply sum_ext. intros l Hl. rewrite mu_at, star_below by assumption. reflexivity.
  Qed.
  Lemma star2_at : star2 n A2 k2 = tail n A1 k k2.
  Proof. rewrite <- tail_residue. apply inner_ext; intros; apply star_at; assumption. Qed.
  Lemma star2_below : forall c, c < k2 -> star2 n A2 c = star2 n A1 c.
  Proof. intros c Hc. apply inner_ext; intros; apply star_below; assumption. Qed.
  Lemma inner_below : forall j c, j <= c -> c < k2 ->
    inner n (star n A2 j) (fun r => A2 r c) = inner n (star n A1 j) (fun r => A1 r c).
  Proof.
    intros j c Hj Hc. apply inner_ext; intros; [apply star_below|apply E_below]; lia.
  Qed.
  Lemma inner_at : forall j, j < k2 ->
    inner n (star n A2 j) (fun r => A2 r k2) = inner n (star n A1 j) (fun r => A1 r k).
  Proof.
    intros j Hj. apply inner_ext; intros; [apply star_below|apply E_at]; lia.
  Qed.
End Inserted.

Lemma tail_S : forall m A k l,
  tail m A k l = (tail m A k (S l) + mu m A l k * mu m A l k * star2 m A l)%Qc.
Proof.
  intros m A k l. unfold tail. cbn [sum]. unfold star2.
  rewrite <- (coef_inner m (star m A l) (fun i => A i k)).
  change (coef m (star m A l) (fun i => A i k)) with (mu m A l k). ring.
Qed.

Lemma step_exact : forall fuel n d k b G f b1 G1 f1 b2 G2, 0 < k < d ->
  is_gram n d b G -> independent n d (zof b) -> good n k (zof b) f ->
  reduced exact_eta exact_delta n k (zof b) ->
  SizeReduce O_ fuel n d k b G f = Done (b1, G1, f1) ->
  let k2 := find_insertion O_ k 0 k f1 in
  (if k =? k2 then (b1, G1) else Insert k k2 n d b1 G1) = (b2, G2) ->
  k2 <= k /\ is_gram n d b2 G2 /\ independent n d (zof b2) /\
  good n (S k2) (zof b2) (move_factors O_ 0 k2 k f1) /\
  reduced exact_eta exact_delta n (S k2) (zof b2) /\
  (forall c i, c < k2 -> i < n ->
     star n (to_Qc (zof b2)) c i = star n (to_Qc (zof b)) c i) /\
  (k2 = k -> same_star n (zof b) (zof b2)) /\
  (k2 < k -> (star2 n (to_Qc (zof b2)) k2 < star2 n (to_Qc (zof b)) k2)%Qc).
Proof.
  intros fuel n d k b G f b1 G1 f1 b2 G2 Hk HG HI HF HR ES k2 EI.
  assert (NZ : forall j, j < k -> star2 n (to_Qc (zof b)) j <> 0%Qc).
  { intros j Hj. apply (independent_star n d); [assumption|lia]. }
  destruct (SizeReduce_exact fuel n d k b G f b1 G1 f1 Hk HG NZ HF ES)
    as (S1 & S2 & S3 & [S4 S4'] & (S5 & S5' & S5'') & S6).
  destruct (find_insertion_spec k k f1 (Nat.le_refl k)) as (F1 & F2 & F3).
  fold k2 in F1, F2, F3.
  destruct (move_factors_spec k2 k f1 F1) as [M1 M2].
  set (f2 := move_factors O_ 0 k2 k f1) in *. clearbody f2.
  set (A := to_Qc (zof b)) in *. set (A1 := to_Qc (zof b1)) in *.
  set (A2 := to_Qc (zof b2)) in *.
  assert (I1 : independent n d (zof b1)).
  { (* The columns of b1 come from those of b by operations that keep independence. *)
    revert HI. clear - ES Hk. revert b G f b1 G1 f1 ES.
    induction fuel as [|fuel IH]; intros b G f b1 G1 f1 ES H; cbn [SizeReduce] in ES;
      [discriminate ES|].
    destruct (size_reduced _ _ _); [injection ES as <- <- <-; exact H|].
    destruct (compute_X _ _ _) as [[X p] mu1]. destruct p; [|discriminate ES].
    apply (IH _ _ _ _ _ _ ES). revert H.
    apply (update_b_rel n k X b (keeps_independence n d)); [apply keeps_closed|].
    intros v j r Hj. apply keeps_subtract; lia. }
  assert (B2 : is_gram n d b2 G2 /\ independent n d (zof b2) /\
    forall i c, i < n -> zof b2 i c = zof b1 i (inserted k k2 c)).
  { destruct (Nat.eqb_spec k k2) as [Ek|Nk].
    - injection EI as <- <-. split; [exact S1|]. split; [exact I1|].
      intros i c _. rewrite <- Ek. unfold inserted.
      destruct (Nat.ltb_spec c k); [reflexivity|].
      destruct (Nat.eqb_spec c k) as [->|]; [reflexivity|].
      destruct (Nat.leb_spec c k); [lia|reflexivity].
    - destruct (Insert_spec k k2 n d b1 G1 b2 G2 ltac:(lia) ltac:(lia) EI) as (J1 & J2 & _).
      split; [apply J2; exact S1|]. split; [|exact J1].
      assert (K : independent n d (fun i c => zof b1 i (inserted k k2 c))).
      { apply (inserted_rel n d (keeps_independence n d) k k2); try lia; [| |exact I1].
        - apply keeps_closed.
        - intros v a Ha. apply keeps_swap. assumption. }
      revert K. apply (proj1 (keeps_closed n d)). intros i c Hi. symmetry. apply J1. assumption. }
  destruct B2 as (B2 & B3 & B4).
  assert (EA : forall i c, i < n -> A2 i c = A1 i (inserted k k2 c)).
  { intros i c Hi. unfold A2, A1, to_Qc. rewrite B4 by assumption. reflexivity. }
  assert (ST : forall c, star2 n A1 c = star2 n A c) by (intros; apply star2_same; exact S2).
  assert (LT : forall c i, c < k -> i < n -> A1 i c = A i c).
  { intros c i Hc Hi. unfold A1, A, to_Qc. rewrite S3 by lia. reflexivity. }
  assert (MU : forall l c, l < c -> c < k -> mu n A1 l c = mu n A l c).
  { intros l c Hl Hc. apply mu_rows; [lia|]. intros; apply LT; lia. }
  destruct HR as [HR1 HR2]. fold A in HR1, HR2.
  split; [exact F1|]. split; [exact B2|]. split; [exact B3|].
  split; [|split; [|split; [|split]]].
  - split; fold A2.
    + intros j i Hij. rewrite M1. destruct (Nat.eqb_spec i k2) as [->|Ni].
      * destruct (Nat.ltb_spec j k2) as [Lj|Lj].
        { rewrite S5 by lia. fold A1. symmetry. apply (inner_at n k k2 A1 A2); assumption. }
        { assert (j = k2) by lia. subst j. rewrite Nat.eqb_refl, S5'' by lia. fold A1.
          rewrite star_diagonal. symmetry. apply (star2_at n k k2 A1 A2); assumption. }
      * rewrite S4 by lia. fold A1. symmetry. apply (inner_below n k k2 A1 A2); try assumption; lia.
    + intros j i Hij. rewrite M2. destruct (Nat.eqb_spec i k2) as [->|Ni]; cbn [andb].
      * destruct (Nat.ltb_spec j k2); [|lia]. rewrite S5' by lia. fold A1. symmetry.
        apply (mu_at n k k2 A1 A2); assumption.
      * rewrite S4' by lia. fold A1. symmetry. apply (mu_below n k k2 A1 A2); try assumption; lia.
  - split; fold A2.
    + intros i j Hij. destruct (Nat.eq_dec j k2) as [->|Nj].
      * rewrite (mu_at n k k2 A1 A2) by (try assumption; lia). apply S6. lia.
      * rewrite (mu_below n k k2 A1 A2), MU by (try assumption; lia). apply HR1. lia.
    + intros j Hj. fold (star2 n A2 (j - 1)) (star2 n A2 j).
      destruct (Nat.eq_dec j k2) as [->|Nj].
      * rewrite (mu_at n k k2 A1 A2) by (try assumption; lia).
        rewrite (star2_below n k k2 A1 A2) by (try assumption; lia).
        rewrite (star2_at n k k2 A1 A2) by assumption.
        pose proof (F3 ltac:(lia)) as C. rewrite S4, S5'' in C by lia. fold A1 in C.
        rewrite star_diagonal in C. fold (star2 n A1 (k2 - 1)) in C.
        rewrite tail_S in C. replace (S (k2 - 1)) with k2 in C by lia.
        revert C. generalize (star2 n A1 (k2 - 1)) as x. generalize (tail n A1 k k2) as y.
        generalize (mu n A1 (k2 - 1) k) as u. clear. intros u y x C.
        apply Qclt_le_weak in C. revert C. generalize exact_delta as dl. intros dl. toQ.
        intros. lra.
      * rewrite (mu_below n k k2 A1 A2), MU by (try assumption; lia).
        rewrite !(star2_below n k k2 A1 A2), !ST by (try assumption; lia).
        apply HR2. lia.
  - intros c i Hc Hi. rewrite (star_below n k k2 A1 A2) by assumption. apply S2. assumption.
  - intros Ek. rewrite Ek in EI. rewrite Nat.eqb_refl in EI. injection EI as <- <-. exact S2.
  - intros L. rewrite (star2_at n k k2 A1 A2) by assumption.
    pose proof (F2 k2 ltac:(lia)) as C. rewrite S4, S5'' in C by lia. fold A1 in C.
    rewrite star_diagonal in C. fold (star2 n A1 k2) in C. rewrite ST in C.
    pose proof (NZ k2 L) as N.
    pose proof (inner_nonneg n (star n A k2)) as P. fold (star2 n A k2) in P.
    apply Qcle_lt_or_eq in P. destruct P as [P|P]; [|congruence].
    eapply Qcle_lt_trans; [exact C|]. revert P. generalize (star2 n A k2) as x.
    intros x. unfold exact_delta. toQ. intros. lra.
Qed.

Lemma ns_loop_exact : forall fuel n d k b G f b', 0 < k <= Nat.max 1 d ->
  is_gram n d b G -> independent n d (zof b) -> good n k (zof b) f ->
  reduced exact_eta exact_delta n k (zof b) ->
  ns_loop O_ fuel n d 0 k b G f = Done b' ->
  reduced exact_eta exact_delta n d (zof b').
Proof.
  intros fuel n d; induction fuel as [|fuel IH]; intros k b G f b' Hk HG HI HF HR E;
    cbn [ns_loop] in E; destruct (Nat.ltb_spec k d) as [L|L]; try discriminate E.
  1, 3: injection E as <-; destruct d as [|d]; [split; intros; lia|];
        replace (S d) with k by lia; exact HR.
  destruct (SizeReduce O_ (S fuel) n d k b G f) as [[[b1 G1] f1]| |] eqn:ES; try discriminate E.
  destruct (if k =? find_insertion O_ k 0 k f1 then (b1, G1)
            else Insert k (find_insertion O_ k 0 k f1) n d b1 G1) as [b2 G2] eqn:EI.
  destruct (step_exact (S fuel) n d k b G f b1 G1 f1 b2 G2 ltac:(lia) HG HI HF HR ES EI)
    as (K1 & K2 & K3 & K4 & K5 & _).
  rewrite (independent_column n d) in E by (try assumption; lia).
  replace (Nat.max 1 (S (find_insertion O_ k 0 k f1)))
    with (S (find_insertion O_ k 0 k f1)) in E by lia.
  eapply IH; [| | | | |exact E]; try assumption. lia.
Qed.

Lemma ns_exact : forall fuel n d L junkG junk b, independent n d (zof L) ->
  NguyenStehle O_ fuel n d L junkG junk = Done b ->
  reduced exact_eta exact_delta n d (zof b).
Proof.
  intros fuel n d L junkG junk b HI E. unfold NguyenStehle in E.
  pose proof (Gram_spec n d L junkG) as HG.
  destruct (le_lt_dec d 1) as [Hd|Hd].
  { destruct fuel; cbn [ns_loop] in E; destruct (Nat.ltb_spec 1 d); try lia;
      injection E as <-; split; intros; lia. }
  eapply ns_loop_exact; [| | | | |exact E].
  - lia.
  - exact HG.
  - exact HI.
  - split; cbn [fr fmu]; [|intros; lia]. intros j i Hij. assert (j = 0 /\ i = 0) by lia.
    destruct H as [-> ->]. rewrite fget_fset. cbn [Nat.eqb andb].
    change (f_of_Z O_ (zget (Gram n d L junkG) 0 0)) with (of_Z (zof (Gram n d L junkG) 0 0)).
    rewrite HG by lia. rewrite of_Z_gram. rewrite star_column. cbn [sum]. qring.
  - split; intros; lia.
Qed.
