(* When the functions Solve succeed. *)
From Coq Require Import ZArith QArith Qcanon Qcabs List Bool Arith Lia Lqa.
From Verif Require Import Matrix_Model Matrix_Spec Matrix_Proofs.
Local Open Scope nat_scope.

Lemma Solve_nonsingular : forall n A b JL JU Jy Jx x,
  Solve n A b JL JU Jy Jx = Ok x -> nonsingular n A.
Proof.
  intros n A b JL JU Jy Jx x E z Hz i Hi.
  apply Solve_sound in E. destruct E as [E1 E2].
  assert (H : solves n A b (fun j => x j + z j)%Qc).
  { intros k Hk. unfold apply.
    rewrite (sum_ext n _ (fun j => (A k j * x j + A k j * z j)%Qc))
      by (intros; ring).
    rewrite sum_plus. fold (apply n A x k). fold (apply n A z k).
    rewrite (E1 k Hk), (Hz k Hk). ring. }
  pose proof (E2 _ H i Hi) as E. cbn beta in E.
  replace (z i) with (x i + z i - x i)%Qc by ring. rewrite E. ring.
Qed.

Lemma R3x3_Solve_nonsingular : forall A b JL JU Jy Jx x,
  R3x3_Solve A b JL JU Jy Jx = Ok x -> nonsingular 3 A.
Proof.
  intros A b JL JU Jy Jx x E z Hz i Hi.
  apply R3x3_Solve_sound in E. destruct E as [E1 E2].
  assert (H : solves 3 A b (fun j => x j + z j)%Qc).
  { intros k Hk. unfold apply.
    rewrite (sum_ext 3 _ (fun j => (A k j * x j + A k j * z j)%Qc))
      by (intros; ring).
    rewrite sum_plus. fold (apply 3 A x k). fold (apply 3 A z k).
    rewrite (E1 k Hk), (Hz k Hk). ring. }
  pose proof (E2 _ H i Hi) as E. cbn beta in E.
  replace (z i) with (x i + z i - x i)%Qc by ring. rewrite E. ring.
Qed.

(* An upper triangular matrix whose last pivot vanishes is singular. *)
Lemma upper_kernel : forall m U,
  (forall i, i < m -> U i i <> 0%Qc) -> U m m = 0%Qc ->
  exists z, z m = 1%Qc /\ forall i, i < S m -> apply (S m) (upper U) z i = 0%Qc.
Proof.
  intros m U HU E.
  assert (G : exists z, forall i, i < m -> apply m (upper U) z i = (- U i m)%Qc).
  { destruct m as [|p].
    - exists (fun _ => 0%Qc). intros; lia.
    - destruct (back_total (S p) U (fun i => - U i (S p))%Qc (fun _ => 0%Qc))
        as (z & Ez); [lia|assumption|].
      apply back_correct in Ez. exists z. intros i Hi. apply Ez. lia. }
  destruct G as (z & Hz). exists (vset z m 1%Qc). split; [apply vset_same|].
  intros i Hi. unfold apply. cbn [sum]. rewrite vset_same.
  rewrite (sum_ext m _ (fun j => (upper U i j * z j)%Qc)).
  2: { intros j Hj. rewrite vset_other by lia. reflexivity. }
  destruct (Nat.eq_dec i m) as [->|].
  - rewrite sum_0.
    + unfold upper. rewrite Nat.leb_refl, E. ring.
    + intros j Hj. unfold upper. destruct (Nat.leb_spec m j); [lia|]. ring.
  - fold (apply m (upper U) z i). rewrite Hz by lia.
    unfold upper. destruct (Nat.leb_spec i m); [|lia]. ring.
Qed.

Lemma nonsingular_last_pivot : forall m A b s,
  nonsingular (S m) A -> lu_inv (S m) A b (S m) s -> lu_U s m m <> 0%Qc.
Proof.
  intros m A b s N I E.
  destruct (upper_kernel m (lu_U s)) as (z & Hz & Hk).
  - intros i Hi. apply (inv_pivots _ _ _ _ _ I); lia.
  - exact E.
  - assert (HS : solves (S m) (lu_A s) (fun _ => 0%Qc) z).
    { intros i Hi. rewrite (lu_apply (S m) A b s z i I Hi).
      unfold apply at 1. apply sum_0. intros l Hl. rewrite Hk by assumption. ring. }
    destruct (inv_system _ _ _ _ _ I) as (p & q & P & PA & _).
    assert (HK : solves (S m) A (fun _ => 0%Qc) z).
    { apply (permuted_solves (S m) A (fun _ => 0%Qc) (lu_A s) (fun _ => 0%Qc) z).
      - exists p, q. auto.
      - exact HS. }
    rewrite (N z HK m) in Hz by lia. discriminate.
Qed.

Lemma lu_solve_total : forall m A b s Jy Jx,
  nonsingular (S m) A -> lu_inv (S m) A b (S m) s ->
  exists x, bind (ForwardSubstitution (S m) (lu_L s) (lu_b s) Jy) (fun y =>
            BackSubstitution (S m) (lu_U s) y Jx) = Ok x.
Proof.
  intros m A b s Jy Jx N I.
  destruct (forward_total (S m) (lu_L s) (lu_b s) Jy) as (y & Ey); [lia| |].
  { intros i Hi. rewrite (inv_diagonal _ _ _ _ _ I) by assumption. discriminate. }
  rewrite Ey. cbn [bind]. apply back_total; [lia|].
  intros i Hi. destruct (Nat.eq_dec i m) as [->|].
  - eapply nonsingular_last_pivot; eauto.
  - apply (inv_pivots _ _ _ _ _ I); lia.
Qed.

(* The loop stops only at a vanishing pivot. *)
Lemma solve_step_total : forall n k s,
  k < n ->
  (S k = n \/
   forall r, fst (pivot n k (lu_A s)) = Some r ->
     (lu_A s r k - sum k (fun l => lu_L s r l * lu_U s l k) <> 0)%Qc) ->
  exists s', solve_step n k s = Ok s'.
Proof.
  intros n k s Hk H. unfold solve_step.
  destruct (pivot_some n k (lu_A s) Hk) as (r & Er & Hr & _). rewrite Er.
  match goal with
  | |- exists x, bind ?l _ = _ => assert (G : exists x, l = Ok x)
  end.
  { apply L_column_total. intros Hn.
    destruct H as [H|H]; [lia|].
    rewrite U_row_spec, Nat.eqb_refl. destruct (Nat.leb_spec k k); [|lia].
    destruct (Nat.ltb_spec k n); [|lia]. cbn [andb].
    rewrite swap_rows_sw by assumption.
    assert (Hsw : sw k r k = r) by (unfold sw; rewrite Nat.eqb_refl; reflexivity).
    rewrite Hsw.
    rewrite (sum_ext k _ (fun l => (lu_L s r l * lu_U s l k)%Qc)).
    - apply H. assumption.
    - intros l Hl. rewrite swap_rows_sw by assumption. rewrite Hsw. reflexivity. }
  destruct G as (L' & ->). cbn [bind]. eauto.
Qed.

(* In dimension one and two the function succeeds on all the nonsingular
   systems. *)
Lemma Solve_total_small : forall n A b JL JU Jy Jx,
  0 < n <= 2 -> nonsingular n A -> exists x, Solve n A b JL JU Jy Jx = Ok x.
Proof.
  intros n A b JL JU Jy Jx Hn N. unfold Solve.
  assert (G : exists s, loopM 0 n (solve_step n) (mkLU A JL JU b) = Ok s).
  { destruct (loopM_total (lu_inv n A b) (solve_step n) n 0 (mkLU A JL JU b))
      as (s & E & _).
    - intros k s Hk I. destruct (solve_step_total n k s) as (s' & E); [lia| |].
      + destruct (Nat.eq_dec (S k) n) as [->|]; [left; reflexivity|right].
        intros r Er. assert (k = 0) by lia. subst k. cbn [sum].
        destruct (pivot_some n 0 (lu_A s)) as (r' & Er' & Hr' & Hmax); [lia|].
        rewrite Er' in Er. injection Er as ->. intros E0.
        assert (E1 : lu_A s r 0 = 0%Qc).
        { replace (lu_A s r 0) with (lu_A s r 0%nat - 0)%Qc by ring. exact E0. }
        assert (HZ : forall i, i < n -> lu_A s i 0 = 0%Qc).
        { intros i Hi. specialize (Hmax i ltac:(lia)). rewrite E1 in Hmax.
          apply Qcabs_Qcle_condition in Hmax. destruct Hmax as [M1 M2].
          apply Qcle_antisym; [exact M2|exact M1]. }
        destruct (inv_system _ _ _ _ _ I) as (p & q & P & PA & _).
        assert (HK : solves n A (fun _ => 0%Qc) (vset (fun _ => 0%Qc) 0 1%Qc)).
        { apply (permuted_solves n A (fun _ => 0%Qc) (lu_A s) (fun _ => 0%Qc)).
          - exists p, q. auto.
          - intros i Hi. unfold apply. apply sum_0. intros j Hj.
            destruct j as [|j].
            + rewrite HZ by assumption. ring.
            + rewrite vset_other by lia. ring. }
        specialize (N _ HK 0 ltac:(lia)). rewrite vset_same in N. discriminate.
      + exists s'. split; [assumption|].
        eapply solve_step_inv; eauto. lia.
    - apply lu_init.
    - eauto. }
  destruct G as (s & E). rewrite E. cbn [bind].
  apply solve_loop_inv in E.
  destruct n as [|m]; [lia|]. eapply lu_solve_total; eauto.
Qed.

(* ------------------------------------------------- diagonal dominance *)

Lemma sum_nonneg : forall n f, (forall i, i < n -> (0 <= f i)%Qc) -> (0 <= sum n f)%Qc.
Proof.
  induction n as [|n IH]; intros f H; cbn [sum]; [apply Qcle_refl|].
  replace 0%Qc with (0 + 0)%Qc by ring.
  apply Qcplus_le_compat; [apply IH; intros|]; apply H; lia.
Qed.

Lemma sum_le : forall n f g,
  (forall i, i < n -> (f i <= g i)%Qc) -> (sum n f <= sum n g)%Qc.
Proof.
  induction n as [|n IH]; intros f g H; cbn [sum]; [apply Qcle_refl|].
  apply Qcplus_le_compat; [apply IH; intros|]; apply H; lia.
Qed.

Lemma sum_abs : forall n f, (Qcabs (sum n f) <= sum n (fun i => Qcabs (f i)))%Qc.
Proof.
  induction n as [|n IH]; intros f; cbn [sum]; [rewrite Qcabs_pos; apply Qcle_refl|].
  eapply Qcle_trans; [apply Qcabs_triangle|].
  apply Qcplus_le_compat; [apply IH|apply Qcle_refl].
Qed.

Lemma sum_term_le : forall n f k,
  k < n -> (forall i, i < n -> (0 <= f i)%Qc) -> (f k <= sum n f)%Qc.
Proof.
  induction n as [|n IH]; intros f k Hk H; [lia|]. cbn [sum].
  destruct (Nat.eq_dec k n) as [->|].
  - replace (f n) with (0 + f n)%Qc at 1 by ring.
    apply Qcplus_le_compat; [|apply Qcle_refl].
    apply sum_nonneg. intros; apply H; lia.
  - replace (f k) with (f k + 0)%Qc by ring.
    apply Qcplus_le_compat; [|apply H; lia].
    apply IH; [lia|]. intros; apply H; lia.
Qed.

(* A position at which the absolute value of a vector is largest. *)
Lemma argmax : forall n (y : vector), 0 < n ->
  exists m, m < n /\ forall i, i < n -> (Qcabs (y i) <= Qcabs (y m))%Qc.
Proof.
  induction n as [|n IH]; intros y Hn; [lia|].
  destruct n as [|n].
  { exists 0. split; [lia|]. intros i Hi. replace i with 0 by lia. apply Qcle_refl. }
  destruct (IH y) as (m & Hm & H); [lia|].
  destruct (Qclt_le_dec (Qcabs (y m)) (Qcabs (y (S n)))) as [L|L].
  - exists (S n). split; [lia|]. intros i Hi.
    destruct (Nat.eq_dec i (S n)) as [->|]; [apply Qcle_refl|].
    apply Qcle_trans with (Qcabs (y m)); [apply H; lia|apply Qclt_le_weak; exact L].
  - exists m. split; [lia|]. intros i Hi.
    destruct (Nat.eq_dec i (S n)) as [->|]; [assumption|apply H; lia].
Qed.

Lemma Qcabs_zero : forall x, (Qcabs x <= 0)%Qc -> x = 0%Qc.
Proof.
  intros x H. apply Qcabs_Qcle_condition in H. destruct H as [H1 H2].
  apply Qcle_antisym; [exact H2|exact H1].
Qed.

(* The leading square submatrices of a column dominant matrix have no left
   kernel. *)
Lemma dominant_left_kernel : forall n A p y,
  column_dominant n A -> p <= n -> 
  (forall j, j < p -> sum p (fun i => y i * A i j)%Qc = 0%Qc) ->
  forall i, i < p -> y i = 0%Qc.
Proof.
  intros n A p y D Hp H.
  destruct (Nat.eq_dec p 0) as [->|Np]; [intros; lia|].
  destruct (argmax p y) as (m & Hm & Max); [lia|].
  assert (Z : y m = 0%Qc).
  { apply Qcabs_zero. apply Qcnot_lt_le. intros Pos.
    pose proof (H m Hm) as E.
    assert (E' : (y m * A m m)%Qc
                 = (- sum p (fun i => if i =? m then 0 else y i * A i m))%Qc).
    { assert (F : sum p (fun i => (y i * A i m)%Qc)
        = (sum p (fun i => if i =? m then 0 else y i * A i m)
           + sum p (fun i => if i =? m then y m * A m m else 0))%Qc).
      { rewrite <- sum_plus. apply sum_ext. intros i Hi.
        destruct (Nat.eqb_spec i m) as [->|]; ring. }
      rewrite (sum_single p m (fun i => if i =? m then (y m * A m m)%Qc else 0%Qc)) in F.
      - rewrite Nat.eqb_refl in F. rewrite F in E.
        match goal with |- ?g = (- ?t)%Qc =>
          replace g with ((t + g) - t)%Qc by ring; rewrite E; ring end.
      - assumption.
      - intros i Hi Ni. destruct (Nat.eqb_spec i m); [contradiction|reflexivity]. }
    apply (f_equal Qcabs) in E'. rewrite Qcabs_Qcmult, Qcabs_opp in E'.
    assert (B : (Qcabs (y m) * Qcabs (A m m)
                 <= Qcabs (y m) * sum n (fun i => if i =? m then 0%Qc else Qcabs (A i m)))%Qc).
    { rewrite E'. eapply Qcle_trans; [apply sum_abs|].
      apply Qcle_trans with
        (sum p (fun i => if i =? m then 0 else Qcabs (y m) * Qcabs (A i m))%Qc).
      - apply sum_le. intros i Hi. destruct (Nat.eqb_spec i m).
        + rewrite Qcabs_pos; apply Qcle_refl.
        + rewrite Qcabs_Qcmult. apply Qcmult_le_compat_r; [|apply Qcabs_nonneg].
          apply Max; assumption.
      - rewrite <- sum_scale. replace n with (p + (n - p)) by lia.
        rewrite sum_split.
        match goal with |- (?a <= ?b + ?c)%Qc => assert (X : a = b); [|rewrite X] end.
        { apply sum_ext. intros i Hi. destruct (i =? m); ring. }
        match goal with |- (?a <= ?a + ?c)%Qc =>
          apply Qcle_trans with (a + 0)%Qc;
            [replace (a + 0)%Qc with a by ring; apply Qcle_refl|] end.
        apply Qcplus_le_compat; [apply Qcle_refl|].
        apply sum_nonneg. intros i Hi. destruct (p + i =? m).
        + rewrite Qcmult_0_r. apply Qcle_refl.
        + rewrite <- Qcabs_Qcmult. apply Qcabs_nonneg. }
    specialize (D m ltac:(lia)).
    apply (Qcle_not_lt _ _ B). rewrite !(Qcmult_comm (Qcabs (y m))).
    apply Qcmult_lt_compat_r; assumption. }
  intros i Hi. apply Qcabs_zero. rewrite Z in Max. apply Max. assumption.
Qed.

(* A vector y such that the transpose of a unit lower triangular matrix maps it
   to the last vector of the basis. *)
Lemma lower_left : forall k L,
  exists y, y k = 1%Qc /\
    forall l, l < k ->
      (y l + sum (k - l) (fun i => y (S l + i)%nat * L (S l + i)%nat l))%Qc = 0%Qc.
Proof.
  intros k L.
  pose (V := fun i j => if i =? j then 1%Qc else L j i).
  destruct (back_total (S k) V (vset (fun _ => 0%Qc) k 1%Qc) (fun _ => 0%Qc))
    as (y & Ey); [lia| |].
  { intros i Hi. unfold V. rewrite Nat.eqb_refl. discriminate. }
  apply back_correct in Ey. destruct Ey as [_ Ey]. exists y.
  assert (D : forall i, V i i = 1%Qc) by (intros; unfold V; rewrite Nat.eqb_refl; reflexivity).
  split.
  - destruct (Ey k) as [_ E]; [lia|]. rewrite apply_upper, vset_same, D in E by lia.
    replace (S k - S k) with 0 in E by lia. cbn [sum] in E.
    replace (y k) with (1 * y k + 0)%Qc by ring. exact E.
  - intros l Hl. destruct (Ey l) as [_ E]; [lia|].
    rewrite apply_upper, vset_other, D in E by lia.
    rewrite <- E. replace (S k - S l) with (k - l) by lia.
    rewrite Qcmult_1_l. f_equal. apply sum_ext. intros i Hi.
    unfold V. destruct (Nat.eqb_spec l (S l + i)); [lia|]. ring.
Qed.

(* If the leading columns are factorized, and the next pivot vanishes, there is a
   left kernel. *)
Lemma zero_pivot_left_kernel : forall n A b k s,
  k < n -> lu_inv n A b k s ->
  (lu_A s k k - sum k (fun l => lu_L s k l * lu_U s l k))%Qc = 0%Qc ->
  exists y, y k = 1%Qc /\
    forall j, j < S k -> sum (S k) (fun i => y i * lu_A s i j)%Qc = 0%Qc.
Proof.
  intros n A b k s Hk I E.
  destruct (lower_left k (lu_L s)) as (y & Hy & HyL). exists y. split; [assumption|].
  (* The rows up to k, in the columns up to k, are combinations of the rows of
     U. *)
  pose (L1 := fun i l => if i =? l then 1%Qc else if l <? i then lu_L s i l else 0%Qc).
  pose (U1 := fun l j => if (l =? k) then 0%Qc
                         else if l <=? j then lu_U s l j else 0%Qc).
  assert (F : forall i j, i < S k -> j < S k ->
            lu_A s i j = sum (S k) (fun l => L1 i l * U1 l j)%Qc).
  { intros i j Hi Hj.
    assert (G1 : forall q, q <= i -> q <= S j ->
              sum q (fun l => (L1 i l * U1 l j)%Qc)
              = sum q (fun l => (lu_L s i l * lu_U s l j)%Qc)).
    { intros q Hq1 Hq2. apply sum_ext. intros l Hl. unfold L1, U1.
      destruct (Nat.eqb_spec i l); [lia|]. destruct (Nat.ltb_spec l i); [|lia].
      destruct (Nat.eqb_spec l k); [lia|]. destruct (Nat.leb_spec l j); [|lia].
      reflexivity. }
    destruct (le_lt_dec i j) as [Hij|Hij].
    - replace (S k) with (S i + (k - i)) by lia.
      rewrite sum_split, (sum_0 (k - i)).
      + cbn [sum]. rewrite G1 by lia. unfold L1 at 1. rewrite Nat.eqb_refl.
        destruct (Nat.eq_dec i k) as [->|].
        * assert (j = k) by lia. subst j. unfold U1. rewrite Nat.eqb_refl.
          match type of E with (?a - ?c)%Qc = _ =>
            replace a with ((a - c) + c)%Qc by ring; rewrite E; ring end.
        * rewrite (inv_U _ _ _ _ _ I) by lia.
          unfold U1. destruct (Nat.eqb_spec i k); [lia|].
          destruct (Nat.leb_spec i j); [|lia]. ring.
      + intros l Hl. unfold L1. destruct (Nat.eqb_spec i (S i + l)); [lia|].
        destruct (Nat.ltb_spec (S i + l) i); [lia|]. ring.
    - replace (S k) with (S j + (k - j)) by lia.
      rewrite sum_split, (sum_0 (k - j)).
      + rewrite G1 by lia. cbn [sum]. rewrite (inv_L _ _ _ _ _ I) by lia. ring.
      + intros l Hl. unfold U1. destruct (Nat.eqb_spec (S j + l) k); [ring|].
        destruct (Nat.leb_spec (S j + l) j); [lia|]. ring. }
  intros j Hj.
  rewrite (sum_ext (S k) _ (fun i => sum (S k) (fun l => y i * L1 i l * U1 l j)%Qc)).
  2: { intros i Hi. rewrite (F i j) by assumption. rewrite <- sum_scale.
       apply sum_ext. intros; ring. }
  rewrite sum_exchange. apply sum_0. intros l Hl.
  rewrite sum_scale_r. destruct (Nat.eq_dec l k) as [->|].
  { unfold U1. rewrite Nat.eqb_refl. ring. }
  assert (Z : sum (S k) (fun i => (y i * L1 i l)%Qc) = 0%Qc).
  { replace (S k) with (S l + (k - l)) by lia.
    rewrite sum_split. cbn [sum]. rewrite sum_0.
    - etransitivity; [|exact (HyL l ltac:(lia))]. unfold L1 at 1. rewrite Nat.eqb_refl.
      rewrite (sum_ext (k - l) _ (fun i => (y (S l + i)%nat * lu_L s (S l + i)%nat l)%Qc)).
      + ring.
      + intros i Hi. unfold L1. destruct (Nat.eqb_spec (S l + i) l); [lia|].
        destruct (Nat.ltb_spec l (S l + i)); [reflexivity|lia].
    - intros i Hi. unfold L1. destruct (Nat.eqb_spec i l); [lia|].
      destruct (Nat.ltb_spec l i); [lia|]. ring. }
  rewrite Z. ring.
Qed.

(* The pivot of a column dominant matrix is on the diagonal. *)
Lemma dominant_pivot : forall n A k r,
  column_dominant n A -> k < n -> k <= r < n ->
  (forall i, k <= i < n -> (Qcabs (A i k) <= Qcabs (A r k))%Qc) -> r = k.
Proof.
  intros n A k r D Hk Hr H.
  destruct (Nat.eq_dec r k) as [|N]; [assumption|exfalso].
  specialize (D k Hk). specialize (H k ltac:(lia)).
  apply (Qcle_not_lt _ _ H). eapply Qcle_lt_trans; [|exact D].
  eapply Qcle_trans; [|apply (sum_term_le n _ r)].
  - cbn beta. destruct (Nat.eqb_spec r k); [contradiction|]. apply Qcle_refl.
  - lia.
  - intros i Hi. destruct (i =? k); [apply Qcle_refl|apply Qcabs_nonneg].
Qed.

Definition same_matrix (n : nat) (A : matrix) (s : lu) :=
  forall i j, i < n -> j < n -> lu_A s i j = A i j.

Lemma dominant_ext : forall n A B,
  (forall i j, i < n -> j < n -> B i j = A i j) ->
  column_dominant n A -> column_dominant n B.
Proof.
  intros n A B E D k Hk. rewrite E by assumption.
  rewrite (sum_ext n _ (fun i => if i =? k then 0%Qc else Qcabs (A i k))).
  - apply D. assumption.
  - intros i Hi. rewrite E by assumption. reflexivity.
Qed.

Lemma dominant_step : forall n A b k s,
  column_dominant n A -> k < n -> lu_inv n A b k s -> same_matrix n A s ->
  exists s', solve_step n k s = Ok s' /\ same_matrix n A s'.
Proof.
  intros n A b k s D Hk I M.
  pose proof (dominant_ext n A (lu_A s) M D) as Ds.
  destruct (pivot_some n k (lu_A s) Hk) as (r & Er & Hr & Hmax).
  assert (r = k) by (eapply dominant_pivot; eauto). subst r.
  destruct (solve_step_total n k s Hk) as (s' & Es).
  - right. intros r E. rewrite Er in E. injection E as <-.
    intros Z. destruct (zero_pivot_left_kernel n A b k s Hk I Z) as (y & Hy & HL).
    rewrite (dominant_left_kernel n (lu_A s) (S k) y Ds) in Hy; try lia; try exact HL.
    discriminate.
  - exists s'. split; [assumption|]. unfold solve_step in Es. rewrite Er in Es.
    apply bind_ok in Es. destruct Es as (L' & _ & Es). injection Es as <-.
    intros i j Hi Hj. cbn [lu_A]. rewrite swap_rows_sw by assumption.
    rewrite <- M by assumption. f_equal. unfold sw.
    destruct (Nat.eqb_spec i k); [congruence|reflexivity].
Qed.

(* The last pivot, obtained by the same argument, makes the substitution
   succeed. *)
Lemma dominant_last_pivot : forall m A b s,
  column_dominant (S m) A -> lu_inv (S m) A b (S m) s -> same_matrix (S m) A s ->
  lu_U s m m <> 0%Qc.
Proof.
  intros m A b s D I M E.
  pose proof (dominant_ext (S m) A (lu_A s) M D) as Ds.
  assert (I' : lu_inv (S m) A b m s).
  { destruct I as [I1 I2 I3 I4 I5]. constructor; auto. }
  destruct (zero_pivot_left_kernel (S m) A b m s) as (y & Hy & HL); [lia|assumption| |].
  - rewrite (inv_U _ _ _ _ _ I m m) by lia. rewrite E. ring.
  - rewrite (dominant_left_kernel (S m) (lu_A s) (S m) y Ds) in Hy; try lia; try exact HL.
    discriminate.
Qed.

Lemma Solve_dominant : forall n A b JL JU Jy Jx,
  0 < n -> column_dominant n A -> exists x, Solve n A b JL JU Jy Jx = Ok x.
Proof.
  intros n A b JL JU Jy Jx Hn D. unfold Solve.
  destruct (loopM_total (fun k s => lu_inv n A b k s /\ same_matrix n A s)
              (solve_step n) n 0 (mkLU A JL JU b)) as (s & E & I & M).
  - intros k s Hk [I M].
    destruct (dominant_step n A b k s) as (s' & E & M'); try assumption; [lia|].
    exists s'. split; [assumption|]. split; [|assumption].
    eapply solve_step_inv; eauto. lia.
  - split; [apply lu_init|]. intros i j Hi Hj. reflexivity.
  - rewrite E. cbn [bind]. cbn [Nat.add] in I.
    destruct (forward_total n (lu_L s) (lu_b s) Jy) as (y & Ey); [lia| |].
    { intros i Hi. rewrite (inv_diagonal _ _ _ _ _ I) by assumption. discriminate. }
    rewrite Ey. cbn [bind]. apply back_total; [lia|].
    intros i Hi. destruct n as [|m]; [lia|].
    destruct (Nat.eq_dec i m) as [->|].
    + eapply dominant_last_pivot; eauto.
    + apply (inv_pivots _ _ _ _ _ I); lia.
Qed.

Lemma R3x3_Solve_dominant : forall A b JL JU Jy Jx,
  column_dominant 3 A -> exists x, R3x3_Solve A b JL JU Jy Jx = Ok x.
Proof.
  intros A b JL JU Jy Jx D. unfold R3x3_Solve.
  destruct (loopM_total (fun k s => lu_inv 3 A b k s /\ same_matrix 3 A s)
              r3_solve_step 3 0 (mkLU A JL JU b)) as (s & E & I & M).
  - intros k s Hk [I M]. assert (Hk' : k < 3) by lia.
    pose proof (dominant_ext 3 A (lu_A s) M D) as Ds.
    destruct (pivot_some 3 k (lu_A s) Hk') as (r & Er & Hr & Hmax).
    assert (r = k) by (eapply dominant_pivot; eauto). subst r.
    assert (Hsw : forall i, sw k k i = i).
    { intros i. unfold sw. destruct (Nat.eqb_spec i k); congruence. }
    assert (E : exists s', r3_solve_step k s = Ok s' /\ same_matrix 3 A s').
    { unfold r3_solve_step. rewrite Er.
      destruct (Qc_eq_dec (swap_rows 3 (lu_A s) k k k k) 0) as [Z|_].
      - exfalso. rewrite swap_rows_sw, Hsw in Z by assumption.
        specialize (Ds k Hk'). rewrite Z in Ds.
        apply (Qclt_not_le _ _ Ds). rewrite (Qcabs_pos 0) by apply Qcle_refl.
        apply sum_nonneg. intros i Hi. destruct (i =? k); [apply Qcle_refl|apply Qcabs_nonneg].
      - match goal with
        | |- exists x, bind ?l _ = _ /\ _ => assert (G : exists x, l = Ok x)
        end.
        { apply L_column_total. intros Hn.
          rewrite U_row_spec, Nat.eqb_refl. destruct (Nat.leb_spec k k); [|lia].
          destruct (Nat.ltb_spec k 3); [|lia]. cbn [andb].
          rewrite swap_rows_sw, Hsw by assumption.
          rewrite (sum_ext k _ (fun l => (lu_L s k l * lu_U s l k)%Qc)).
          - intros Z.
            destruct (zero_pivot_left_kernel 3 A b k s Hk' I Z) as (y & Hy & HL).
            rewrite (dominant_left_kernel 3 (lu_A s) (S k) y Ds) in Hy;
              try lia; try exact HL.
            discriminate.
          - intros l Hl. rewrite swap_rows_sw, Hsw by lia. reflexivity. }
        destruct G as (L' & ->). cbn [bind]. eexists. split; [reflexivity|].
        intros i j Hi Hj. cbn [lu_A]. rewrite swap_rows_sw, Hsw by assumption.
        apply M; assumption. }
    destruct E as (s' & E & M'). exists s'. split; [assumption|].
    split; [|assumption]. eapply r3_solve_step_inv; eauto.
  - split; [apply lu_init|]. intros i j Hi Hj. reflexivity.
  - rewrite E. cbn [bind]. cbn [Nat.add] in I. apply back_total; [lia|].
    intros i Hi. destruct (Nat.eq_dec i 2) as [->|].
    + eapply dominant_last_pivot; eauto.
    + apply (inv_pivots _ _ _ _ _ I); lia.
Qed.
