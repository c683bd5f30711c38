(* Specifications and proofs for Geopotential_Model. *)
From Coq Require Import Reals List Arith Bool Lia Lra Permutation Sorted.
From Verif Require Import Geometry_Model Geopotential_Model.
Import ListNotations.
Open Scope R_scope.

(* Functions equal near a point have the same derivative. *)
Lemma derive_local f g x l d :
  0 < d -> (forall y, Rabs (y - x) < d -> f y = g y) ->
  derivable_pt_lim f x l -> derivable_pt_lim g x l.
Proof.
  intros Hd E H eps Heps. destruct (H eps Heps) as [d' Hd'].
  assert (Hm : 0 < Rmin d d').
  { apply Rmin_glb_lt; [exact Hd | apply cond_pos]. }
  exists (mkposreal _ Hm). cbn. intros h h0 hd.
  rewrite <- !E.
  - apply Hd'; [exact h0|]. eapply Rlt_le_trans; [exact hd | apply Rmin_r].
  - rewrite Rminus_diag_eq, Rabs_R0; [exact Hd | reflexivity].
  - replace (x + h - x) with h by ring.
    eapply Rlt_le_trans; [exact hd | apply Rmin_l].
Qed.

Lemma derive_ext f g x l :
  (forall y, f y = g y) ->
  derivable_pt_lim f x l -> derivable_pt_lim g x l.
Proof.
  intros E. apply (derive_local f g x l 1 Rlt_0_1). intros y _. apply E.
Qed.

(* * Legendre polynomials. *)

(* The recurrence of Bonnet. *)
Fixpoint legendre (n : nat) (x : R) : R :=
  match n with
  | O => 1
  | S k =>
      match k with
      | O => x
      | S j => (INR (2 * k + 1) * x * legendre k x - INR k * legendre j x)
               / INR (k + 1)
      end
  end.

(* Successive derivatives of the polynomials, by the rule of Leibniz. *)
Fixpoint dP (n m : nat) (x : R) : R :=
  match n with
  | O => match m with O => 1 | _ => 0 end
  | S k =>
      match k with
      | O => match m with O => x | 1%nat => 1 | _ => 0 end
      | S j => (INR (2 * k + 1) * (x * dP k m x + INR m * dP k (m - 1) x)
                - INR k * dP j m x) / INR (k + 1)
      end
  end.

Lemma two_step_ind (P : nat -> Prop) :
  P 0%nat -> P 1%nat -> (forall n, P n -> P (S n) -> P (S (S n))) ->
  forall n, P n.
Proof.
  intros H0 H1 H n. cut (P n /\ P (S n)). { tauto. }
  induction n as [|n [IH1 IH2]]; split; auto.
Qed.

Lemma dP_SS n m x :
  dP (S (S n)) m x =
  (INR (2 * S n + 1) * (x * dP (S n) m x + INR m * dP (S n) (m - 1) x)
   - INR (S n) * dP n m x) / INR (S n + 1).
Proof. reflexivity. Qed.

Lemma dP_legendre n x : dP n 0 x = legendre n x.
Proof.
  revert n. apply two_step_ind; try reflexivity.
  intros n IH1 IH2. rewrite dP_SS, IH1, IH2.
  change (legendre (S (S n)) x) with
    ((INR (2 * S n + 1) * x * legendre (S n) x - INR (S n) * legendre n x)
     / INR (S n + 1)).
  unfold Rdiv. f_equal. change (INR 0) with 0. ring.
Qed.

Lemma dP_derive n : forall m x, derivable_pt_lim (dP n m) x (dP n (S m) x).
Proof.
  revert n. apply (two_step_ind
    (fun n => forall m x, derivable_pt_lim (dP n m) x (dP n (S m) x))).
  - intros [|m] x; apply derivable_pt_lim_const.
  - intros [|[|m]] x.
    + apply derivable_pt_lim_id.
    + apply derivable_pt_lim_const.
    + apply derivable_pt_lim_const.
  - intros n IH1 IH2 m x.
    set (a := INR (2 * S n + 1)). set (b := INR (S n)).
    set (c := INR (S n + 1)).
    assert (H : derivable_pt_lim
      (fun y => / c * (a * (y * dP (S n) m y + INR m * dP (S n) (m - 1) y)
                       - b * dP n m y)) x
      (/ c * (a * (1 * dP (S n) m x + x * dP (S n) (S m) x
                   + INR m * dP (S n) (S (m - 1)) x) - b * dP n (S m) x))).
    { apply derivable_pt_lim_scal.
      apply derivable_pt_lim_minus; [| apply derivable_pt_lim_scal; apply IH1].
      apply derivable_pt_lim_scal.
      apply derivable_pt_lim_plus;
        [| apply derivable_pt_lim_scal; apply IH2].
      apply (derivable_pt_lim_mult (fun y => y) (dP (S n) m)).
      - apply derivable_pt_lim_id.
      - apply IH2. }
    replace (dP (S (S n)) (S m) x) with
      (/ c * (a * (1 * dP (S n) m x + x * dP (S n) (S m) x
                   + INR m * dP (S n) (S (m - 1)) x) - b * dP n (S m) x)).
    + revert H. apply derive_ext. intros y. rewrite dP_SS. fold a b c.
      unfold Rdiv. ring.
    + rewrite dP_SS. fold a b c. rewrite (S_INR m).
      replace (S m - 1)%nat with m by lia.
      assert (E : INR m * dP (S n) (S (m - 1)) x = INR m * dP (S n) m x).
      { destruct m as [|m]; [cbn [INR]; ring|].
        replace (S (S m - 1))%nat with (S m) by lia. reflexivity. }
      rewrite E. unfold Rdiv. ring.
Qed.

Lemma dP_zero n : forall m x, (n < m)%nat -> dP n m x = 0.
Proof.
  revert n. apply (two_step_ind
    (fun n => forall m x, (n < m)%nat -> dP n m x = 0)).
  - intros [|m] x H; [lia | reflexivity].
  - intros [|[|m]] x H; [lia | lia | reflexivity].
  - intros n IH1 IH2 m x H. rewrite dP_SS, IH1, !IH2 by lia.
    unfold Rdiv. ring.
Qed.

(* The recurrences used by the code. *)
Lemma dP_next n m x :
  (2 <= n)%nat ->
  dP n (m + 1) x =
  (INR (2 * n - 1) * (x * dP (n - 1) (m + 1) x + INR (m + 1) * dP (n - 1) m x)
   - INR (n - 1) * dP (n - 2) (m + 1) x) / INR n.
Proof.
  intros H. destruct n as [|[|n]]; try lia. rewrite dP_SS.
  replace (2 * S (S n) - 1)%nat with (2 * S n + 1)%nat by lia.
  replace (S (S n) - 1)%nat with (S n) by lia.
  replace (S (S n) - 2)%nat with n by lia.
  replace (m + 1 - 1)%nat with m by lia.
  replace (S n + 1)%nat with (S (S n)) by lia. reflexivity.
Qed.

Lemma dP_first n x :
  (2 <= n)%nat ->
  dP n 0 x = (INR (2 * n - 1) * x * dP (n - 1) 0 x
              - INR (n - 1) * dP (n - 2) 0 x) / INR n.
Proof.
  intros H. destruct n as [|[|n]]; try lia. rewrite dP_SS.
  replace (2 * S (S n) - 1)%nat with (2 * S n + 1)%nat by lia.
  replace (S (S n) - 1)%nat with (S n) by lia.
  replace (S (S n) - 2)%nat with n by lia.
  replace (S n + 1)%nat with (S (S n)) by lia. change (INR 0) with 0.
  unfold Rdiv. ring.
Qed.

(* The differential equation of Legendre and the value at 1. *)
Lemma legendre_identities n x :
  x * dP (S n) 1 x - dP n 1 x = INR (S n) * dP (S n) 0 x /\
  dP (S n) 1 x - x * dP n 1 x = INR (S n) * dP n 0 x.
Proof.
  induction n as [|n [IHa IHb]].
  - cbn [dP INR]. split; ring.
  - assert (Hn : INR (S n) + 1 <> 0).
    { pose proof (pos_INR (S n)). lra. }
    assert (E1 : (INR (S n) + 1) * dP (S (S n)) 1 x =
                 (2 * INR (S n) + 1) * (x * dP (S n) 1 x + dP (S n) 0 x)
                 - INR (S n) * dP n 1 x).
    { rewrite dP_SS. rewrite (plus_INR (S n)).
      rewrite (plus_INR (2 * S n)), (mult_INR 2). cbn [Nat.sub].
      change (INR 1) with 1. change (INR 2) with 2. field. exact Hn. }
    assert (E0 : (INR (S n) + 1) * dP (S (S n)) 0 x =
                 (2 * INR (S n) + 1) * (x * dP (S n) 0 x)
                 - INR (S n) * dP n 0 x).
    { rewrite dP_SS. rewrite (plus_INR (S n)).
      rewrite (plus_INR (2 * S n)), (mult_INR 2). cbn [Nat.sub].
      change (INR 1) with 1. change (INR 2) with 2. change (INR 0) with 0.
      field. exact Hn. }
    set (k := INR (S n)) in *.
    assert (Hk : INR (S (S n)) = k + 1) by (unfold k; apply S_INR).
    rewrite Hk.
    assert (B : dP (S (S n)) 1 x - x * dP (S n) 1 x
                = (k + 1) * dP (S n) 0 x).
    { apply (Rmult_eq_reg_l (k + 1)); [| exact Hn].
      rewrite Rmult_minus_distr_l, E1.
      replace (dP n 1 x) with (x * dP (S n) 1 x - k * dP (S n) 0 x)
        by (rewrite <- IHa; ring). ring. }
    split; [| exact B].
    assert (C : (x * x - 1) * dP (S n) 1 x
                = k * (x * dP (S n) 0 x - dP n 0 x)).
    { rewrite Rmult_minus_distr_l.
      rewrite <- IHb. replace (k * (x * dP (S n) 0 x)) with
        (x * (k * dP (S n) 0 x)) by ring. rewrite <- IHa. ring. }
    rewrite E0.
    replace (dP (S (S n)) 1 x) with
      ((k + 1) * dP (S n) 0 x + x * dP (S n) 1 x) by (rewrite <- B; ring).
    replace (x * ((k + 1) * dP (S n) 0 x + x * dP (S n) 1 x) - dP (S n) 1 x)
      with ((k + 1) * (x * dP (S n) 0 x) + (x * x - 1) * dP (S n) 1 x)
      by ring.
    rewrite C. ring.
Qed.

Lemma legendre_equation n x :
  (1 - x * x) * dP n 2 x - 2 * x * dP n 1 x + INR n * INR (n + 1) * dP n 0 x
  = 0.
Proof.
  destruct n as [|n]; [cbn [dP INR]; ring|].
  assert (C : forall y, (y * y - 1) * dP (S n) 1 y
                        = INR (S n) * (y * dP (S n) 0 y - dP n 0 y)).
  { intros y. destruct (legendre_identities n y) as [A B].
    rewrite Rmult_minus_distr_l.
    rewrite <- B. replace (INR (S n) * (y * dP (S n) 0 y)) with
        (y * (INR (S n) * dP (S n) 0 y)) by ring. rewrite <- A. ring. }
  assert (D1 : derivable_pt_lim (fun y => (y * y - 1) * dP (S n) 1 y) x
                 ((1 * x + x * 1 - 0) * dP (S n) 1 x
                  + (x * x - 1) * dP (S n) 2 x)).
  { apply (derivable_pt_lim_mult (fun y => y * y - 1) (dP (S n) 1)).
    - apply (derivable_pt_lim_minus (fun y => y * y) (fun _ => 1)).
      + apply (derivable_pt_lim_mult (fun y => y) (fun y => y));
          apply derivable_pt_lim_id.
      + apply derivable_pt_lim_const.
    - apply dP_derive. }
  assert (D2 : derivable_pt_lim
                 (fun y => INR (S n) * (y * dP (S n) 0 y - dP n 0 y)) x
                 (INR (S n) * (1 * dP (S n) 0 x + x * dP (S n) 1 x
                               - dP n 1 x))).
  { apply derivable_pt_lim_scal.
    apply (derivable_pt_lim_minus (fun y => y * dP (S n) 0 y) (dP n 0)).
    - apply (derivable_pt_lim_mult (fun y => y) (dP (S n) 0)).
      + apply derivable_pt_lim_id.
      + apply dP_derive.
    - apply dP_derive. }
  assert (D1' : derivable_pt_lim
                 (fun y => INR (S n) * (y * dP (S n) 0 y - dP n 0 y)) x
                 ((1 * x + x * 1 - 0) * dP (S n) 1 x
                  + (x * x - 1) * dP (S n) 2 x)).
  { revert D1. apply derive_ext. exact C. }
  pose proof (uniqueness_limite _ _ _ _ D1' D2) as E.
  destruct (legendre_identities n x) as [A _].
  replace (INR (S n) * (1 * dP (S n) 0 x + x * dP (S n) 1 x - dP n 1 x)) with
    (INR (S n) * (dP (S n) 0 x + (x * dP (S n) 1 x - dP n 1 x))) in E by ring.
  rewrite A in E. rewrite (plus_INR (S n)). change (INR 1) with 1. lra.
Qed.

Lemma legendre_at_1 n : legendre n 1 = 1.
Proof.
  revert n. apply two_step_ind; try reflexivity.
  intros n IH1 IH2.
  change (legendre (S (S n)) 1) with
    ((INR (2 * S n + 1) * 1 * legendre (S n) 1 - INR (S n) * legendre n 1)
     / INR (S n + 1)).
  rewrite IH1, IH2, !plus_INR, mult_INR. change (INR 1) with 1.
  change (INR 2) with 2. field. pose proof (pos_INR (S n)). lra.
Qed.

(* * The damping. *)

(* The cubic that goes from 1 at 0 to 0 at 1 with null derivatives there. *)
Definition smooth_step (t : R) : R := 1 - 3 * t ^ 2 + 2 * t ^ 3.

(* The damping as a function of the distance. *)
Definition sigma (inner : extended) (r : R) : R :=
  match inner with
  | Infinite => 1
  | Finite s =>
      if Rle_dec r s then 1
      else if Rle_dec (3 * s) r then 0
      else smooth_step ((r - s) / (2 * s))
  end.

Definition sigma_prime (inner : extended) (r : R) : R :=
  match inner with
  | Infinite => 0
  | Finite s =>
      if Rle_dec r s then 0
      else if Rle_dec (3 * s) r then 0
      else 3 * (((r - s) / (2 * s)) ^ 2 - (r - s) / (2 * s)) / s
  end.

(* A function which coincides with one or the other of two functions that have
   the same value and derivative. *)
Lemma derive_glue f g h x l :
  f x = h x -> g x = h x -> (forall y, h y = f y \/ h y = g y) ->
  derivable_pt_lim f x l -> derivable_pt_lim g x l -> derivable_pt_lim h x l.
Proof.
  intros Ef Eg E Hf Hg eps Heps.
  destruct (Hf eps Heps) as [d1 H1]. destruct (Hg eps Heps) as [d2 H2].
  assert (Hm : 0 < Rmin d1 d2).
  { apply Rmin_glb_lt; apply cond_pos. }
  exists (mkposreal _ Hm). cbn. intros t t0 td.
  destruct (E (x + t)) as [E'|E']; rewrite E'.
  - rewrite <- Ef. apply H1; [exact t0|].
    eapply Rlt_le_trans; [exact td | apply Rmin_l].
  - rewrite <- Eg. apply H2; [exact t0|].
    eapply Rlt_le_trans; [exact td | apply Rmin_r].
Qed.

Lemma smooth_step_derive s r :
  0 < s ->
  derivable_pt_lim (fun y => smooth_step ((y - s) / (2 * s))) r
    (3 * (((r - s) / (2 * s)) ^ 2 - (r - s) / (2 * s)) / s).
Proof.
  intros Hs. set (a := / (2 * s)).
  assert (L : derivable_pt_lim (fun y => (y - s) * a) r ((1 - 0) * a
               + (r - s) * 0)).
  { apply (derivable_pt_lim_mult (fun y => y - s) (fun _ => a)).
    - apply (derivable_pt_lim_minus (fun y => y) (fun _ => s)).
      + apply derivable_pt_lim_id.
      + apply derivable_pt_lim_const.
    - apply derivable_pt_lim_const. }
  assert (Q : forall t, derivable_pt_lim smooth_step t
                (0 - 3 * (INR 2 * t ^ pred 2) + 2 * (INR 3 * t ^ pred 3))).
  { intros t.
    apply (derivable_pt_lim_plus (fun t => 1 - 3 * t ^ 2)
                                 (fun t => 2 * t ^ 3)).
    - apply (derivable_pt_lim_minus (fun _ => 1) (fun t => 3 * t ^ 2)).
      + apply derivable_pt_lim_const.
      + apply (derivable_pt_lim_scal (fun t => t ^ 2)).
        apply derivable_pt_lim_pow.
    - apply (derivable_pt_lim_scal (fun t => t ^ 3)).
      apply derivable_pt_lim_pow. }
  pose proof (derivable_pt_lim_comp _ _ _ _ _ L (Q ((r - s) * a))) as H.
  replace (3 * (((r - s) / (2 * s)) ^ 2 - (r - s) / (2 * s)) / s) with
    ((0 - 3 * (INR 2 * ((r - s) * a) ^ pred 2)
      + 2 * (INR 3 * ((r - s) * a) ^ pred 3))
     * ((1 - 0) * a + (r - s) * 0)).
  - exact H.
  - unfold a. cbn [INR pred pow]. field. lra.
Qed.

Ltac decide_le :=
  repeat match goal with
  | |- context [Rle_dec ?a ?b] => destruct (Rle_dec a b); try lra
  end.

Lemma sigma_derive_pos s r :
  0 < s ->
  derivable_pt_lim (sigma (Finite s)) r (sigma_prime (Finite s) r).
Proof.
  intros Hs. unfold sigma_prime.
  destruct (Rle_dec r s) as [L1|L1].
  - destruct (Rlt_dec r s) as [L2|L2].
    + apply (derive_local (fun _ => 1) _ _ _ (s - r)); [lra| |].
      * intros y Hy. apply Rabs_def2 in Hy. unfold sigma. decide_le; reflexivity.
      * apply derivable_pt_lim_const.
    + assert (E : r = s) by lra. subst r.
      apply (derive_local
        (fun y => if Rle_dec y s then 1 else smooth_step ((y - s) / (2 * s)))
        _ _ _ s); [exact Hs | |].
      * intros y Hy. apply Rabs_def2 in Hy. unfold sigma. decide_le; reflexivity.
      * apply (derive_glue (fun _ => 1)
                 (fun y => smooth_step ((y - s) / (2 * s)))).
        -- decide_le; reflexivity.
        -- decide_le; unfold smooth_step; field; lra.
        -- intros y. destruct (Rle_dec y s); auto.
        -- apply derivable_pt_lim_const.
        -- replace 0 with (3 * (((s - s) / (2 * s)) ^ 2 - (s - s) / (2 * s)) / s)
             by (field; lra).
           apply smooth_step_derive. exact Hs.
  - destruct (Rle_dec (3 * s) r) as [L2|L2].
    + destruct (Rlt_dec (3 * s) r) as [L3|L3].
      * apply (derive_local (fun _ => 0) _ _ _ (r - 3 * s)); [lra| |].
        -- intros y Hy. apply Rabs_def2 in Hy. unfold sigma. decide_le; reflexivity.
        -- apply derivable_pt_lim_const.
      * assert (E : r = 3 * s) by lra. subst r.
        apply (derive_local
          (fun y => if Rle_dec (3 * s) y then 0
                    else smooth_step ((y - s) / (2 * s)))
          _ _ _ s); [exact Hs | |].
        -- intros y Hy. apply Rabs_def2 in Hy. unfold sigma. decide_le;
             reflexivity.
        -- apply (derive_glue (fun _ => 0)
                    (fun y => smooth_step ((y - s) / (2 * s)))).
           ++ decide_le; reflexivity.
           ++ decide_le; unfold smooth_step; field; lra.
           ++ intros y. destruct (Rle_dec (3 * s) y); auto.
           ++ apply derivable_pt_lim_const.
           ++ replace 0 with (3 * (((3 * s - s) / (2 * s)) ^ 2
                                   - (3 * s - s) / (2 * s)) / s)
                by (field; lra).
              apply smooth_step_derive. exact Hs.
    + apply (derive_local (fun y => smooth_step ((y - s) / (2 * s))) _ _ _
               (Rmin (r - s) (3 * s - r))).
      * apply Rmin_glb_lt; lra.
      * intros y Hy. apply Rabs_def2 in Hy.
        pose proof (Rmin_l (r - s) (3 * s - r)).
        pose proof (Rmin_r (r - s) (3 * s - r)).
        unfold sigma. decide_le; reflexivity.
      * apply smooth_step_derive. exact Hs.
Qed.

Definition nonnegative (l : extended) : Prop :=
  match l with Finite s => 0 <= s | Infinite => True end.

Lemma sigma_derive inner r :
  nonnegative inner -> 0 < r ->
  derivable_pt_lim (sigma inner) r (sigma_prime inner r).
Proof.
  intros Hi Hr. destruct inner as [s|]; [| apply derivable_pt_lim_const].
  cbn in Hi. destruct (Rlt_dec 0 s) as [Hs|Hs].
  - apply sigma_derive_pos. exact Hs.
  - assert (E : s = 0) by lra. subst s. unfold sigma_prime. decide_le.
    apply (derive_local (fun _ => 0) _ _ _ r Hr).
    + intros y Hy. apply Rabs_def2 in Hy. unfold sigma. decide_le; reflexivity.
    + apply derivable_pt_lim_const.
Qed.

Lemma sigma_bounds inner r : nonnegative inner -> 0 <= sigma inner r <= 1.
Proof.
  intros Hi. destruct inner as [s|]; [|cbn; lra].
  cbn in Hi. unfold sigma. decide_le.
  assert (Hs : 0 < s) by lra.
  set (t := (r - s) / (2 * s)).
  assert (Ht : 0 <= t <= 1).
  { unfold t. split.
    - apply Rmult_le_pos; [lra|]. apply Rlt_le, Rinv_0_lt_compat. lra.
    - apply (Rmult_le_reg_r (2 * s)); [lra|]. unfold Rdiv.
      rewrite Rmult_assoc, Rinv_l; lra. }
  unfold smooth_step.
  replace (1 - 3 * t ^ 2 + 2 * t ^ 3) with ((1 - t) ^ 2 * (1 + 2 * t)) by ring.
  split.
  - apply Rmult_le_pos; [apply pow2_ge_0 | lra].
  - replace 1 with ((1 - t) ^ 2 * (1 + 2 * t) + t ^ 2 * (3 - 2 * t)) at 3
      by ring.
    pose proof (Rmult_le_pos (t ^ 2) (3 - 2 * t) (pow2_ge_0 t) ltac:(lra)).
    lra.
Qed.

Lemma sigma_decreasing inner r r' :
  nonnegative inner -> r <= r' -> sigma inner r' <= sigma inner r.
Proof.
  intros Hi Hr.
  pose proof (sigma_bounds inner r Hi) as B.
  pose proof (sigma_bounds inner r' Hi) as B'.
  destruct inner as [s|]; [|cbn in *; lra].
  cbn in Hi. unfold sigma in *. revert B B'. decide_le; intros B B'; try lra.
  assert (Hs : 0 < s) by lra.
  set (t := (r - s) / (2 * s)). set (t' := (r' - s) / (2 * s)).
  assert (H2s : 0 < / (2 * s)) by (apply Rinv_0_lt_compat; lra).
  assert (Ht : 0 <= t) by (unfold t; apply Rmult_le_pos; lra).
  assert (Htt : t <= t')
    by (unfold t, t', Rdiv; apply Rmult_le_compat_r; lra).
  assert (Ht' : t' <= 1).
  { unfold t'. apply (Rmult_le_reg_r (2 * s)); [lra|]. unfold Rdiv.
    rewrite Rmult_assoc, Rinv_l; lra. }
  unfold smooth_step.
  enough (0 <= (t' - t) * (3 * (t' + t) - 2 * (t' ^ 2 + t' * t + t ^ 2))) by lra.
  apply Rmult_le_pos; [lra|].
  assert (t' ^ 2 <= t') by nra. assert (t ^ 2 <= t) by nra.
  assert (t' * t <= t) by nra. assert (t' * t <= t') by nra. lra.
Qed.

(* What the code computes at or below the outer threshold. *)
Lemma radial_quantities inner r u q q' :
  nonnegative inner -> 0 < r ->
  at_most r (outer_threshold (HarmonicDamping inner)) = true ->
  ComputeDampedRadialQuantities (HarmonicDamping inner) r (r * r) u q q' =
  (sigma inner r * q,
   scal3 (sigma_prime inner r * (r * q) + q' * sigma inner r) u).
Proof.
  intros Hi Hr Ho. unfold ComputeDampedRadialQuantities.
  destruct inner as [s|]; cbn in *.
  - destruct (Rle_dec r (s * 3)); [|discriminate].
    destruct (Rle_dec r s).
    + f_equal; [ring|]. f_equal. ring.
    + assert (Hs : 0 < s) by lra. destruct (Rle_dec (3 * s) r).
      * assert (E : r = 3 * s) by lra. subst r. f_equal.
        -- field. lra.
        -- f_equal. field. lra.
      * unfold smooth_step. f_equal.
        -- field. lra.
        -- f_equal. field. lra.
  - f_equal; [ring|]. f_equal. ring.
Qed.

Lemma radial_quantity inner r q :
  nonnegative inner -> 0 < r ->
  at_most r (outer_threshold (HarmonicDamping inner)) = true ->
  ComputeDampedRadialQuantity (HarmonicDamping inner) r (r * r) q =
  sigma inner r * q.
Proof.
  intros Hi Hr Ho. unfold ComputeDampedRadialQuantity.
  destruct inner as [s|]; cbn in *.
  - destruct (Rle_dec r (s * 3)); [|discriminate].
    destruct (Rle_dec r s).
    + ring.
    + assert (Hs : 0 < s) by lra. destruct (Rle_dec (3 * s) r).
      * assert (E : r = 3 * s) by lra. subst r. field. lra.
      * unfold smooth_step. field. lra.
  - ring.
Qed.

(* The damped radial function is differentiable and its derivative is what the
   code multiplies by the direction. *)
Lemma damped_gradient inner r f l u :
  nonnegative inner -> 0 < r -> derivable_pt_lim f r l ->
  at_most r (outer_threshold (HarmonicDamping inner)) = true ->
  exists l',
    derivable_pt_lim (fun y => sigma inner y * f y) r l' /\
    ComputeDampedRadialQuantities (HarmonicDamping inner) r (r * r) u
                                  (f r / r) l =
    (sigma inner r * f r / r, scal3 l' u).
Proof.
  intros Hi Hr Hf Ho.
  exists (sigma_prime inner r * f r + sigma inner r * l). split.
  - apply (derivable_pt_lim_mult (sigma inner) f); [|exact Hf].
    apply sigma_derive; assumption.
  - rewrite radial_quantities by assumption. f_equal.
    + unfold Rdiv. ring.
    + f_equal. field. lra.
Qed.

(* * The dependency on the longitude. *)

(* The real and imaginary parts of (x + i y)^m. *)
Fixpoint re_pow (m : nat) (x y : R) : R :=
  match m with O => 1 | S k => x * re_pow k x y - y * im_pow k x y end
with im_pow (m : nat) (x y : R) : R :=
  match m with O => 0 | S k => x * im_pow k x y + y * re_pow k x y end.

Lemma pow_plus a b x y :
  re_pow (a + b) x y = re_pow a x y * re_pow b x y - im_pow a x y * im_pow b x y
  /\
  im_pow (a + b) x y = im_pow a x y * re_pow b x y + re_pow a x y * im_pow b x y.
Proof.
  induction a as [|a [IH1 IH2]]; cbn [re_pow im_pow Nat.add].
  - split; ring.
  - rewrite IH1, IH2. split; ring.
Qed.

Lemma pow_homogeneous c m x y :
  re_pow m (c * x) (c * y) = c ^ m * re_pow m x y /\
  im_pow m (c * x) (c * y) = c ^ m * im_pow m x y.
Proof.
  induction m as [|m [IH1 IH2]]; cbn [re_pow im_pow pow].
  - split; ring.
  - rewrite IH1, IH2. split; ring.
Qed.

Lemma pow_cos_sin m l :
  re_pow m (cos l) (sin l) = cos (INR m * l) /\
  im_pow m (cos l) (sin l) = sin (INR m * l).
Proof.
  induction m as [|m [IH1 IH2]].
  - cbn. rewrite Rmult_0_l, cos_0, sin_0. split; reflexivity.
  - cbn [re_pow im_pow]. rewrite IH1, IH2, S_INR.
    replace ((INR m + 1) * l) with (l + INR m * l) by ring.
    rewrite cos_plus, sin_plus. split; ring.
Qed.

Lemma pow_derive m fx fy x' y' t :
  derivable_pt_lim fx t x' -> derivable_pt_lim fy t y' ->
  derivable_pt_lim (fun h => re_pow m (fx h) (fy h)) t
    (INR m * (x' * re_pow (m - 1) (fx t) (fy t)
              - y' * im_pow (m - 1) (fx t) (fy t))) /\
  derivable_pt_lim (fun h => im_pow m (fx h) (fy h)) t
    (INR m * (x' * im_pow (m - 1) (fx t) (fy t)
              + y' * re_pow (m - 1) (fx t) (fy t))).
Proof.
  intros Hx Hy. induction m as [|m [IH1 IH2]].
  - cbn [re_pow im_pow INR]. rewrite !Rmult_0_l.
    split; apply derivable_pt_lim_const.
  - replace (S m - 1)%nat with m by lia. rewrite S_INR.
    assert (Er : INR m * re_pow m (fx t) (fy t) =
                 INR m * (fx t * re_pow (m - 1) (fx t) (fy t)
                          - fy t * im_pow (m - 1) (fx t) (fy t))).
    { destruct m as [|m]; [cbn [INR]; ring|].
      replace (S m - 1)%nat with m by lia. reflexivity. }
    assert (Ei : INR m * im_pow m (fx t) (fy t) =
                 INR m * (fx t * im_pow (m - 1) (fx t) (fy t)
                          + fy t * re_pow (m - 1) (fx t) (fy t))).
    { destruct m as [|m]; [cbn [INR]; ring|].
      replace (S m - 1)%nat with m by lia. reflexivity. }
    split.
    + replace ((INR m + 1) * (x' * re_pow m (fx t) (fy t)
                              - y' * im_pow m (fx t) (fy t))) with
        ((x' * re_pow m (fx t) (fy t)
          + fx t * (INR m * (x' * re_pow (m - 1) (fx t) (fy t)
                             - y' * im_pow (m - 1) (fx t) (fy t))))
         - (y' * im_pow m (fx t) (fy t)
            + fy t * (INR m * (x' * im_pow (m - 1) (fx t) (fy t)
                               + y' * re_pow (m - 1) (fx t) (fy t))))).
      * cbn [re_pow].
        apply (derivable_pt_lim_minus
                 (fun h => fx h * re_pow m (fx h) (fy h))
                 (fun h => fy h * im_pow m (fx h) (fy h)));
          [ apply (derivable_pt_lim_mult fx (fun h => re_pow m (fx h) (fy h)))
          | apply (derivable_pt_lim_mult fy
                                         (fun h => im_pow m (fx h) (fy h)))];
          assumption.
      * replace ((INR m + 1) * (x' * re_pow m (fx t) (fy t)
                              - y' * im_pow m (fx t) (fy t))) with
          (x' * re_pow m (fx t) (fy t) - y' * im_pow m (fx t) (fy t)
           + (x' * (INR m * re_pow m (fx t) (fy t))
              - y' * (INR m * im_pow m (fx t) (fy t)))) by ring.
        rewrite Er, Ei. ring.
    + replace ((INR m + 1) * (x' * im_pow m (fx t) (fy t)
                              + y' * re_pow m (fx t) (fy t))) with
        ((x' * im_pow m (fx t) (fy t)
          + fx t * (INR m * (x' * im_pow (m - 1) (fx t) (fy t)
                             + y' * re_pow (m - 1) (fx t) (fy t))))
         + (y' * re_pow m (fx t) (fy t)
            + fy t * (INR m * (x' * re_pow (m - 1) (fx t) (fy t)
                               - y' * im_pow (m - 1) (fx t) (fy t))))).
      * cbn [im_pow].
        apply (derivable_pt_lim_plus
                 (fun h => fx h * im_pow m (fx h) (fy h))
                 (fun h => fy h * re_pow m (fx h) (fy h)));
          [ apply (derivable_pt_lim_mult fx (fun h => im_pow m (fx h) (fy h)))
          | apply (derivable_pt_lim_mult fy
                                         (fun h => re_pow m (fx h) (fy h)))];
          assumption.
      * replace ((INR m + 1) * (x' * im_pow m (fx t) (fy t)
                              + y' * re_pow m (fx t) (fy t))) with
          (x' * im_pow m (fx t) (fy t) + y' * re_pow m (fx t) (fy t)
           + (x' * (INR m * im_pow m (fx t) (fy t))
              + y' * (INR m * re_pow m (fx t) (fy t)))) by ring.
        rewrite Er, Ei. ring.
Qed.

(* * The evaluation of the harmonics. *)

Definition sum_over (l : list nat) (f : nat -> R) : R :=
  fold_right (fun i s => f i + s) 0 l.
Definition vector_sum (l : list nat) (f : nat -> R3) : R3 :=
  fold_right (fun i s => add3 (f i) s) vector_zero l.

Lemma evaluate_seq {S A} (plus : A -> A -> A) (zero : A)
    (f : nat -> S -> S * A) (I : nat -> S -> Prop) (v : nat -> A) len :
  forall lo s,
  (forall i s, (lo <= i < lo + len)%nat -> I i s ->
     exists s', f i s = (s', v i) /\ I (Datatypes.S i) s') ->
  I lo s ->
  exists s',
    evaluate plus zero f (seq lo len) s =
      (s', fold_right (fun i a => plus (v i) a) zero (seq lo len)) /\
    I (lo + len)%nat s'.
Proof.
  induction len as [|len IH]; intros lo s Hf Hs; cbn.
  - exists s. split; [reflexivity|]. rewrite Nat.add_0_r. exact Hs.
  - destruct (Hf lo s) as (s1 & E1 & I1); [lia | exact Hs |].
    destruct (IH (Datatypes.S lo) s1) as (s2 & E2 & I2).
    + intros i s' Hi. apply Hf. lia.
    + exact I1.
    + rewrite E1, E2. exists s2. split; [reflexivity|].
      replace (lo + Datatypes.S len)%nat with (Datatypes.S lo + len)%nat by lia.
      exact I2.
Qed.

Section Evaluation.
  Context (factor : nat -> nat -> R) (g : geopotential).
  (* The static part of the precomputations. *)
  Context (rho sb cb cl sl : R) (u gB gL : R3) (zonal : bool) (ok : Prop).
  Hypothesis rho_pos : 0 < rho.

  Definition order_limit (n : nat) : nat := if zonal then 2 else n.

  (* What is known when the degrees below n are processed, and for degree n,
     the orders below m; [ratios] is the bound on the degrees whose radial
     function is known, [orders] the bound on the orders. *)
  Definition invariant (ratios orders n m : nat) (p : precomputations) : Prop :=
    (p_r_norm p = rho /\ p_r2 p = rho * rho /\ p_r_normalized p = u /\
     p_sin_beta p = sb /\ p_cos_beta p = cb /\ p_grad_B_vector p = gB /\
     p_grad_L_vector p = gL) /\
    (forall k, (1 <= k < ratios)%nat ->
       p_R_over_r p k = reference_radius (body_ g) ^ k / rho ^ (k + 2)) /\
    (forall k, (1 <= k < orders)%nat ->
       p_cos_m_lambda p k = re_pow k cl sl /\
       p_sin_m_lambda p k = im_pow k cl sl) /\
    (forall k, (k < orders)%nat -> p_cos_beta_to_the_m p k = cb ^ k) /\
    (forall k j, (k < n)%nat -> (j <= k)%nat ->
       (zonal = true -> (j <= 1)%nat) -> p_DmPn p k j = dP k j sb) /\
    (forall j, (j <= n)%nat -> (j <= m)%nat -> (0 < m)%nat ->
       (zonal = true -> (j <= 1)%nat) -> p_DmPn p n j = dP n j sb) /\
    (ok -> dchecks p = true).

  Lemma set_at_eq {A} (f : nat -> A) i a : set_at f i a i = a.
  Proof. unfold set_at. rewrite Nat.eqb_refl. reflexivity. Qed.
  Lemma set_at_ne {A} (f : nat -> A) i j a : j <> i -> set_at f i a j = f j.
  Proof.
    intros H. unfold set_at. apply Nat.eqb_neq in H. rewrite H. reflexivity.
  Qed.
  Lemma set_at2_eq {A} (f : nat -> nat -> A) n m a : set_at2 f n m a n m = a.
  Proof. unfold set_at2. rewrite !Nat.eqb_refl. reflexivity. Qed.
  Lemma set_at2_ne {A} (f : nat -> nat -> A) n m i j a :
    i <> n \/ j <> m -> set_at2 f n m a i j = f i j.
  Proof.
    intros H. unfold set_at2. destruct (Nat.eqb_spec i n); [|reflexivity].
    destruct (Nat.eqb_spec j m); [|reflexivity]. lia.
  Qed.

  Lemma update_degree_invariant n p :
    (2 <= n)%nat -> invariant n (order_limit n) n 0 p ->
    invariant (S n) (order_limit n) n 0 (UpdateDegree n p).
  Proof.
    intros Hn (S & R & O & W & D & D' & C).
    assert (E : forall a b, (1 <= a < n)%nat -> (1 <= b < n)%nat ->
              (a + b = n)%nat ->
              p_R_over_r p a * p_R_over_r p b * p_r2 p =
              reference_radius (body_ g) ^ n / rho ^ (n + 2)).
    { intros a b Ha Hb Hab. rewrite !R by assumption.
      destruct S as (_ & -> & _). subst n. rewrite !pow_add.
      pose proof (pow_nonzero rho a ltac:(lra)).
      pose proof (pow_nonzero rho b ltac:(lra)).
      field. repeat split; try assumption; lra. }
    unfold UpdateDegree.
    assert (K : forall v,
      v = reference_radius (body_ g) ^ n / rho ^ (n + 2) ->
      invariant (Datatypes.S n) (order_limit n) n 0 (set_R_over_r p n v)).
    { intros v Hv. split; [exact S|]. split.
      - intros k Hk. cbn. destruct (Nat.eq_dec k n) as [->|H].
        + rewrite set_at_eq. exact Hv.
        + rewrite set_at_ne by assumption. apply R. lia.
      - split; [exact O|]. split; [exact W|]. split; [exact D|].
        split; [exact D' | exact C]. }
    pose proof (Nat.div_mod n 2 ltac:(lia)) as HD.
    pose proof (Nat.mod_upper_bound n 2 ltac:(lia)) as HM.
    destruct (Nat.even n) eqn:Ev.
    - apply Nat.even_spec in Ev. destruct Ev as [k Hk].
      assert (Hd : (n / 2 = k)%nat).
      { subst n. rewrite Nat.mul_comm. apply Nat.div_mul. lia. }
      apply K. apply E; lia.
    - apply K. apply E; lia.
  Qed.

  (* The order m is allowed. *)
  Definition allowed (n m : nat) : Prop :=
    (m <= n)%nat /\ (zonal = true -> m = 0%nat).

  Definition orders_before (n m : nat) : nat :=
    if zonal then 2 else if Nat.ltb n m then S n else n.

  Lemma update_order_invariant n m p :
    (2 <= n)%nat -> allowed n m ->
    invariant (S n) (orders_before n m) n m p ->
    invariant (S n) (orders_before n (S m)) n m (update_order n m p).
  Proof.
    intros Hn (Hm & Hz) (S & R & O & W & D & D' & C).
    unfold update_order. destruct (Nat.eqb_spec m n) as [->|Hmn].
    - assert (Z : zonal = false).
      { destruct zonal; [|reflexivity]. specialize (Hz eq_refl). lia. }
      unfold orders_before in O, W |- *. rewrite Z in O, W |- *.
      assert (L1 : Nat.ltb n n = false) by (apply Nat.ltb_ge; lia).
      assert (L2 : Nat.ltb n (Datatypes.S n) = true) by (apply Nat.ltb_lt; lia).
      rewrite L1 in O, W. rewrite L2.
      assert (K : forall c s w,
        c = re_pow n cl sl -> s = im_pow n cl sl -> w = cb ^ n ->
        invariant (Datatypes.S n) (Datatypes.S n) n n (set_order p n c s w)).
      { intros c s w Hc Hs Hw. split; [exact S|]. split; [exact R|].
        split; [|split; [|split; [exact D|split; [exact D'|exact C]]]].
        - intros k Hk. cbn. destruct (Nat.eq_dec k n) as [->|H].
          + rewrite !set_at_eq. auto.
          + rewrite !set_at_ne by assumption. apply O. lia.
        - intros k Hk. cbn. destruct (Nat.eq_dec k n) as [->|H].
          + rewrite set_at_eq. exact Hw.
          + rewrite set_at_ne by assumption. apply W. lia. }
      pose proof (Nat.div_mod n 2 ltac:(lia)) as HD.
      pose proof (Nat.mod_upper_bound n 2 ltac:(lia)) as HM.
      destruct (Nat.even n) eqn:Ev.
      + apply Nat.even_spec in Ev. destruct Ev as [k Hk].
        assert (Hd : (n / 2 = k)%nat).
        { subst n. rewrite Nat.mul_comm. apply Nat.div_mul. lia. }
        rewrite Hd. cbv zeta. destruct (O k) as [-> ->]; [lia|].
        rewrite (W k) by lia.
        destruct (pow_plus k k cl sl) as [P1 P2].
        replace (k + k)%nat with n in P1, P2 by lia.
        apply K.
        * rewrite P1. ring.
        * rewrite P2. ring.
        * rewrite <- pow_add. f_equal. lia.
      + cbv zeta. set (h1 := (n / 2)%nat) in *.
        destruct (O h1) as [-> ->]; [lia|].
        destruct (O (n - h1)%nat) as [-> ->]; [lia|].
        rewrite !W by lia.
        destruct (pow_plus h1 (n - h1) cl sl) as [P1 P2].
        replace (h1 + (n - h1))%nat with n in P1, P2 by lia.
        apply K.
        * rewrite P1. ring.
        * rewrite P2. ring.
        * rewrite <- pow_add. f_equal. lia.
    - replace (orders_before n (Datatypes.S m)) with (orders_before n m).
      + exact (conj S (conj R (conj O (conj W (conj D (conj D' C)))))).
      + unfold orders_before. destruct zonal; [reflexivity|].
        assert (L1 : Nat.ltb n m = false) by (apply Nat.ltb_ge; lia).
        assert (L2 : Nat.ltb n (Datatypes.S m) = false)
          by (apply Nat.ltb_ge; lia).
        rewrite L1, L2. reflexivity.
  Qed.

  Lemma update_DmPn_invariant n m p :
    (2 <= n)%nat -> allowed n m ->
    invariant (S n) (orders_before n (S m)) n m p ->
    invariant (S n) (orders_before n (S m)) n (S m)
              (update_DmPn n m (update_Pn n m p)).
  Proof.
    intros Hn (Hm & Hz) (S & R & O & W & D & D' & C).
    assert (Sb : p_sin_beta p = sb) by apply S.
    (* After the computation of the polynomial itself. *)
    set (p1 := update_Pn n m p).
    assert (S1 : p_sin_beta p1 = sb).
    { unfold p1, update_Pn. destruct (Nat.eqb m 0); exact Sb. }
    assert (D1 : forall k j, (k < n)%nat -> (j <= k)%nat ->
              (zonal = true -> (j <= 1)%nat) -> p_DmPn p1 k j = dP k j sb).
    { intros k j Hk Hj Hjz. unfold p1, update_Pn.
      destruct (Nat.eqb m 0); [|apply D; assumption].
      cbn. rewrite set_at2_ne by lia. apply D; assumption. }
    assert (D1' : forall j, (j <= n)%nat -> (j <= m)%nat ->
              (zonal = true -> (j <= 1)%nat) -> p_DmPn p1 n j = dP n j sb).
    { intros j Hj Hjm Hjz. unfold p1, update_Pn.
      destruct (Nat.eqb_spec m 0) as [H0|H0].
      - subst m. assert (j = 0%nat) by lia. subst j. cbn [p_DmPn set_DmPn].
        rewrite set_at2_eq, (dP_first n sb Hn), Sb, !D by lia. reflexivity.
      - apply D'; [assumption | assumption | lia | assumption]. }
    assert (I1 : (p_r_norm p1 = rho /\ p_r2 p1 = rho * rho /\
                  p_r_normalized p1 = u /\
                  p_sin_beta p1 = sb /\ p_cos_beta p1 = cb /\
                  p_grad_B_vector p1 = gB /\ p_grad_L_vector p1 = gL) /\
                 p_R_over_r p1 = p_R_over_r p /\
                 p_cos_m_lambda p1 = p_cos_m_lambda p /\
                 p_sin_m_lambda p1 = p_sin_m_lambda p /\
                 p_cos_beta_to_the_m p1 = p_cos_beta_to_the_m p /\
                 dchecks p1 = dchecks p).
    { unfold p1, update_Pn. destruct (Nat.eqb m 0); auto 10. }
    clearbody p1. destruct I1 as (S1' & ER & EC & ES & EW & ED).
    assert (K : forall v, (m < n)%nat -> v = dP n (m + 1) sb ->
              invariant (Datatypes.S n) (orders_before n (Datatypes.S m)) n
                        (Datatypes.S m) (set_DmPn p1 n (m + 1) v)).
    { intros v Hmn Hv. split; [exact S1'|].
      split; [cbn; rewrite ER; exact R|].
      split; [cbn; rewrite EC, ES; exact O|].
      split; [cbn; rewrite EW; exact W|].
      split; [|split; [|cbn; rewrite ED; exact C]].
      - intros k j Hk Hj Hjz. cbn. rewrite set_at2_ne by lia.
        apply D1; assumption.
      - intros j Hj Hjm _ Hjz. cbn.
        destruct (Nat.eq_dec j (m + 1)) as [->|H].
        + rewrite set_at2_eq. exact Hv.
        + rewrite set_at2_ne by lia. apply D1'; [assumption | lia | assumption]. }
    pose proof (dP_next n m sb Hn) as N.
    unfold update_DmPn. destruct (Nat.eqb_spec m n) as [->|Hmn].
    { split; [exact S1'|]. rewrite ER, EC, ES, EW, ED.
      split; [exact R|]. split; [exact O|]. split; [exact W|].
      split; [exact D1|]. split; [|exact C].
      intros j Hj _ _ Hjz. apply D1'; assumption. }
    assert (Hz1 : zonal = true -> (m + 1 <= 1)%nat).
    { intros H. rewrite (Hz H). lia. }
    assert (Hz0 : zonal = true -> (m <= 1)%nat) by (intros H; specialize (Hz1 H); lia).
    destruct (Nat.eqb_spec m (n - 1)) as [E1|H1].
    { apply K; [lia|]. rewrite N.
      rewrite (dP_zero (n - 1) (m + 1)), (dP_zero (n - 2) (m + 1)) by lia.
      rewrite D1 by (assumption || lia). unfold Rdiv. ring. }
    destruct (Nat.eqb_spec m (n - 2)) as [E2|H2].
    { apply K; [lia|]. rewrite N.
      rewrite (dP_zero (n - 2) (m + 1)) by lia.
      rewrite !D1 by (assumption || lia). rewrite S1. unfold Rdiv. ring. }
    apply K; [lia|]. rewrite N, !D1 by (assumption || lia). rewrite S1.
    reflexivity.
  Qed.

  Lemma update_invariant n m p :
    (2 <= n)%nat -> allowed n m ->
    invariant (S n) (orders_before n m) n m p ->
    invariant (S n) (orders_before n (S m)) n (S m) (UpdateOrder n m p).
  Proof.
    intros Hn Ha I. unfold UpdateOrder.
    destruct (Nat.eqb_spec n 2) as [->|H2]; cbn [andb].
    - destruct (Nat.eqb_spec m 1) as [->|H1].
      + destruct Ha as (_ & Hz). destruct I as (S & R & O & W & D & D' & C).
        assert (Z : zonal = false).
        { destruct zonal; [|reflexivity]. specialize (Hz eq_refl). lia. }
        unfold orders_before in O, W |- *. rewrite Z in O, W |- *. cbn [Nat.ltb Nat.leb] in O, W |- *.
        split; [exact S|]. split; [exact R|]. split; [exact O|].
        split; [exact W|]. split; [|split; [|exact C]].
        * intros k j Hk Hj Hjz. cbn [p_DmPn set_DmPn].
          rewrite set_at2_ne by lia. apply D; assumption.
        * intros j Hj Hjm _ Hjz. cbn [p_DmPn set_DmPn].
          destruct (Nat.eq_dec j 2) as [->|Hj2].
          -- rewrite set_at2_eq. cbn [dP INR Nat.mul Nat.add Nat.sub]. field.
          -- rewrite set_at2_ne by lia. apply D'; [lia | lia | lia | assumption].
      + apply update_DmPn_invariant; [exact Hn | exact Ha |].
        apply update_order_invariant; assumption.
    - apply update_DmPn_invariant; [exact Hn | exact Ha |].
      apply update_order_invariant; assumption.
  Qed.

  (* The contributions of one harmonic. *)
  Definition term_potential (n m : nat) (sR_over_r : R) : R :=
    if Nat.eqb n 2 && Nat.eqb m 1 then 0
    else
      - factor n m * (rho * sR_over_r) * (cb ^ m * dP n m sb) *
      (cos_coefficients (body_ g) n m * re_pow m cl sl +
       sin_coefficients (body_ g) n m * im_pow m cl sl).

  Definition term_acceleration (n m : nat) (sR_over_r : R) (grad_sR : R3)
      : R3 :=
    if Nat.eqb n 2 && Nat.eqb m 1 then vector_zero
    else
      let C := cos_coefficients (body_ g) n m in
      let S := sin_coefficients (body_ g) n m in
      let L := C * re_pow m cl sl + S * im_pow m cl sl in
      scal3 (factor n m)
        (add3
           (add3 (scal3 (cb ^ m * dP n m sb * L) grad_sR)
                 (scal3 (sR_over_r * L *
                         (cb * cb ^ m * dP n (m + 1) sb
                          - INR m * sb * cb ^ (m - 1) * dP n m sb)) gB))
           (scal3 (sR_over_r * cb ^ (m - 1) * dP n m sb * INR m *
                   (S * re_pow m cl sl - C * im_pow m cl sl)) gL)).

  Lemma order_values n m sR gr p :
    (2 <= n)%nat -> allowed n m ->
    invariant (S n) (orders_before n (S m)) n (S m) p ->
    order_potential factor (body_ g) n m sR p = term_potential n m sR /\
    order_acceleration factor (body_ g) n m sR gr p =
    term_acceleration n m sR gr.
  Proof.
    intros Hn (Hm & Hz) (S & R & O & W & D & D' & C).
    unfold order_potential, term_potential, order_acceleration,
      term_acceleration.
    destruct (Nat.eqb n 2 && Nat.eqb m 1); [split; reflexivity|].
    destruct S as (-> & _ & _ & -> & -> & -> & ->).
    assert (Lm : (m < orders_before n (Datatypes.S m))%nat).
    { unfold orders_before. destruct zonal.
      - rewrite (Hz eq_refl). lia.
      - destruct (Nat.ltb_spec n (Datatypes.S m)); lia. }
    rewrite (W m Lm), (W (m - 1)%nat) by lia.
    rewrite (D' m) by (try assumption; try lia; intros H; rewrite (Hz H); lia).
    destruct (Nat.eqb_spec m 0) as [->|H0].
    - destruct (Nat.ltb_spec 0 n); [|lia].
      cbn [Nat.ltb Nat.leb Nat.eqb re_pow im_pow INR pow Nat.sub].
      rewrite D' by lia. split; [ring|].
      f_equal. unfold add3, scal3. cbn [cx cy cz]. f_equal; ring.
    - destruct (Nat.ltb_spec 0 m) as [_|]; [|lia].
      destruct (O m) as [-> ->]; [lia|].
      split; [ring|]. cbv zeta. f_equal.
      destruct (Nat.ltb_spec m n) as [Hmn|Hmn].
      + assert (Z : zonal = false).
        { destruct zonal; [|reflexivity]. specialize (Hz eq_refl). lia. }
        rewrite D' by (try lia; rewrite Z; discriminate). reflexivity.
      + rewrite (dP_zero n (m + 1)) by lia.
        unfold add3, scal3. cbn [cx cy cz]. f_equal; ring.
  Qed.

  Context (degree_inner : nat -> extended) (sectoral_inner : extended).
  Hypothesis sectoral_damping_is :
    sectoral_damping g = HarmonicDamping sectoral_inner.

  Definition inner_of (n m : nat) : extended :=
    if Nat.eqb n 2 && Nat.ltb 0 m then sectoral_inner else degree_inner n.

  Definition ratio (n : nat) : R :=
    reference_radius (body_ g) ^ n / rho ^ (n + 2).

  Definition damped_ratio (n m : nat) : R :=
    sigma (inner_of n m) rho * ratio n.

  Definition damped_gradient_of (n m : nat) : R3 :=
    scal3 (sigma_prime (inner_of n m) rho * (rho * ratio n)
           + - INR (n + 1) * ratio n * sigma (inner_of n m) rho) u.

  Definition size_of (n : nat) : nat := if zonal then 1%nat else (n + 1)%nat.

  Lemma DCHECK_invariant ratios orders n m p (b : bool) :
    (ok -> b = true) -> invariant ratios orders n m p ->
    invariant ratios orders n m (DCHECK p b).
  Proof.
    intros Hb (S & R & O & W & D & D' & C).
    refine (conj S (conj R (conj O (conj W (conj D (conj D' _)))))).
    intros H. cbn. rewrite (Hb H), (C H). reflexivity.
  Qed.

  (* The quantities for degree n, when it is not above its threshold. *)
  Definition reachable (n : nat) : Prop :=
    nonnegative (degree_inner n) /\
    damping_of_degree g n = HarmonicDamping (degree_inner n) /\
    at_most rho (outer_threshold (HarmonicDamping (degree_inner n))) = true /\
    (ok -> below rho (outer_threshold (HarmonicDamping (degree_inner n)))
           = true) /\
    (n = 2%nat -> zonal = false ->
     nonnegative sectoral_inner /\
     at_most rho (outer_threshold (HarmonicDamping sectoral_inner)) = true /\
     (ok -> below rho (outer_threshold (HarmonicDamping sectoral_inner))
            = true)).

  Lemma degree_start n p :
    (2 <= n)%nat -> invariant n (order_limit n) n 0 p ->
    invariant (S n) (orders_before n 0) n 0 (UpdateDegree n p) /\
    p_R_over_r (UpdateDegree n p) n = ratio n.
  Proof.
    intros Hn I. pose proof (update_degree_invariant n p Hn I) as I'.
    split.
    - replace (orders_before n 0) with (order_limit n); [exact I'|].
      unfold orders_before, order_limit. destruct zonal; reflexivity.
    - destruct I' as (_ & R & _). apply R. lia.
  Qed.

  Lemma degree_end n p :
    (2 <= n)%nat -> invariant (S n) (orders_before n (size_of n)) n (size_of n) p ->
    invariant (S n) (order_limit (S n)) (S n) 0 p.
  Proof.
    intros Hn (S & R & O & W & D & D' & C).
    replace (orders_before n (size_of n)) with (order_limit (Datatypes.S n))
      in O, W.
    - refine (conj S (conj R (conj O (conj W (conj _ (conj _ C)))))).
      + intros k j Hk Hj Hjz. destruct (Nat.eq_dec k n) as [->|H].
        * apply D'; try assumption; unfold size_of in *;
            destruct zonal; lia.
        * apply D; try assumption. lia.
      + intros j _ _ H. lia.
    - unfold order_limit, orders_before, size_of. destruct zonal; [reflexivity|].
      destruct (Nat.ltb_spec n (n + 1)); [reflexivity | lia].
  Qed.

  Lemma static_norm ratios orders n m p :
    invariant ratios orders n m p ->
    p_r_norm p = rho /\ p_r2 p = rho * rho /\ p_r_normalized p = u.
  Proof. intros (S & _). tauto. Qed.

  Lemma degree_acceleration n p :
    (2 <= n)%nat -> reachable n -> invariant n (order_limit n) n 0 p ->
    exists p',
      DegreeAcceleration factor g (size_of n) n p =
        (p', vector_sum (seq 0 (size_of n))
               (fun m => term_acceleration n m (damped_ratio n m)
                                           (damped_gradient_of n m))) /\
      invariant (S n) (order_limit (S n)) (S n) 0 p'.
  Proof.
    intros Hn (N1 & E1 & A1 & B1 & Sec) I.
    destruct (degree_start n p Hn I) as [I' ER].
    destruct (static_norm _ _ _ _ _ I') as (F1 & F2 & F3).
    unfold DegreeAcceleration. destruct (Nat.ltb_spec n 2); [lia|].
    cbv zeta. rewrite ER, F1, F2, F3, E1.
    destruct (Nat.eqb n 2 && Nat.ltb 1 (size_of n)) eqn:Case.
    - apply andb_prop in Case. destruct Case as [C1 C2].
      apply Nat.eqb_eq in C1. apply Nat.ltb_lt in C2. subst n.
      assert (Z : zonal = false).
      { unfold size_of in C2. destruct zonal; [lia | reflexivity]. }
      destruct (Sec eq_refl Z) as (N2 & A2 & B2).
      rewrite E1, sectoral_damping_is.
      rewrite !radial_quantities by assumption.
      unfold OrderAcceleration.
      set (p0 := UpdateDegree 2 p) in *.
      set (p1 := DCHECK p0 _).
      assert (I1 : invariant 3 (orders_before 2 0) 2 0 p1).
      { apply DCHECK_invariant; assumption. }
      assert (G1 : p_r_norm (UpdateOrder 2 0 p1) = rho).
      { assert (I2 : invariant 3 (orders_before 2 1) 2 1 (UpdateOrder 2 0 p1)).
        { apply update_invariant; try assumption. split; [lia | reflexivity]. }
        apply (static_norm _ _ _ _ _ I2). }
      rewrite G1.
      assert (I2 : invariant 3 (orders_before 2 1) 2 1 (UpdateOrder 2 0 p1)).
      { apply update_invariant; try assumption. split; [lia | reflexivity]. }
      set (p2 := UpdateOrder 2 0 p1) in *.
      set (p3 := DCHECK p2 _).
      assert (I3 : invariant 3 (orders_before 2 1) 2 1 p3).
      { apply DCHECK_invariant; assumption. }
      assert (I4 : invariant 3 (orders_before 2 2) 2 2 (UpdateOrder 2 1 p3)).
      { apply update_invariant; try assumption.
        split; [lia | rewrite Z; discriminate]. }
      set (p4 := UpdateOrder 2 1 p3) in *.
      assert (I5 : invariant 3 (orders_before 2 3) 2 3 (UpdateOrder 2 2 p4)).
      { apply update_invariant; try assumption.
        split; [lia | rewrite Z; discriminate]. }
      exists (UpdateOrder 2 2 p4). split.
      + f_equal. unfold size_of. rewrite Z. cbn [Nat.add seq vector_sum
          fold_right].
        assert (V0 : forall sR gr, order_acceleration factor (body_ g) 2 0 sR gr p2
                     = term_acceleration 2 0 sR gr).
        { intros sR gr. apply order_values; try assumption.
          split; [lia | reflexivity]. }
        assert (V2 : forall sR gr, order_acceleration factor (body_ g) 2 2 sR gr
                       (UpdateOrder 2 2 p4) = term_acceleration 2 2 sR gr).
        { intros sR gr. apply order_values; try assumption.
          split; [lia | rewrite Z; discriminate]. }
        rewrite V0, V2.
        change (term_acceleration 2 1 (damped_ratio 2 1)
                                  (damped_gradient_of 2 1)) with vector_zero.
        unfold damped_ratio, damped_gradient_of.
        change (inner_of 2 0) with (degree_inner 2).
        change (inner_of 2 2) with sectoral_inner.
        change (2 + 1)%nat with 3%nat.
        unfold add3, vector_zero. cbn [cx cy cz]. f_equal; ring.
      + apply (degree_end 2); [lia|]. unfold size_of. rewrite Z. exact I5.
    - rewrite radial_quantities by assumption.
      set (p0 := UpdateDegree n p) in *.
      set (p1 := DCHECK p0 _).
      assert (I1 : invariant (S n) (orders_before n 0) n 0 p1).
      { apply DCHECK_invariant; assumption. }
      destruct (evaluate_seq add3 vector_zero
        (fun m p => OrderAcceleration factor (body_ g) n m
           (sigma (degree_inner n) rho * ratio n)
           (scal3 (sigma_prime (degree_inner n) rho * (rho * ratio n) +
                   - INR (n + 1) * ratio n * sigma (degree_inner n) rho) u) p)
        (fun m p => invariant (S n) (orders_before n m) n m p)
        (fun m => term_acceleration n m (damped_ratio n m)
                                    (damped_gradient_of n m))
        (size_of n) 0%nat p1) as (p' & Ev & I'').
      + intros m q Hm Iq. unfold OrderAcceleration.
        assert (Al : allowed n m).
        { split; unfold size_of in Hm; destruct zonal; lia. }
        pose proof (update_invariant n m q Hn Al Iq) as Iq'.
        exists (UpdateOrder n m q). split; [|exact Iq'].
        f_equal. destruct (order_values n m
          (sigma (degree_inner n) rho * ratio n)
          (scal3 (sigma_prime (degree_inner n) rho * (rho * ratio n) +
                   - INR (n + 1) * ratio n * sigma (degree_inner n) rho) u)
          _ Hn Al Iq') as [_ ->].
        unfold damped_ratio, damped_gradient_of.
        replace (inner_of n m) with (degree_inner n); [reflexivity|].
        unfold inner_of. apply andb_false_iff in Case.
        destruct Case as [Case|Case]; [rewrite Case; reflexivity|].
        apply Nat.ltb_ge in Case.
        destruct (Nat.ltb_spec 0 m); [lia|]. rewrite andb_false_r. reflexivity.
      + exact I1.
      + exists p'. split; [exact Ev|]. apply degree_end; assumption.
  Qed.

  Lemma degree_potential n p :
    (2 <= n)%nat -> reachable n -> invariant n (order_limit n) n 0 p ->
    exists p',
      DegreePotential factor g (size_of n) n p =
        (p', sum_over (seq 0 (size_of n))
               (fun m => term_potential n m (damped_ratio n m))) /\
      invariant (S n) (order_limit (S n)) (S n) 0 p'.
  Proof.
    intros Hn (N1 & E1 & A1 & B1 & Sec) I.
    destruct (degree_start n p Hn I) as [I' ER].
    destruct (static_norm _ _ _ _ _ I') as (F1 & F2 & F3).
    unfold DegreePotential. destruct (Nat.ltb_spec n 2); [lia|].
    cbv zeta. rewrite ER, F1, F2, E1.
    destruct (Nat.eqb n 2 && Nat.ltb 1 (size_of n)) eqn:Case.
    - apply andb_prop in Case. destruct Case as [C1 C2].
      apply Nat.eqb_eq in C1. apply Nat.ltb_lt in C2. subst n.
      assert (Z : zonal = false).
      { unfold size_of in C2. destruct zonal; [lia | reflexivity]. }
      destruct (Sec eq_refl Z) as (N2 & A2 & B2).
      rewrite E1, sectoral_damping_is.
      rewrite !radial_quantity by assumption.
      unfold OrderPotential.
      set (p0 := UpdateDegree 2 p) in *.
      set (p1 := DCHECK p0 _).
      assert (I1 : invariant 3 (orders_before 2 0) 2 0 p1).
      { apply DCHECK_invariant; assumption. }
      assert (I2 : invariant 3 (orders_before 2 1) 2 1 (UpdateOrder 2 0 p1)).
      { apply update_invariant; try assumption. split; [lia | reflexivity]. }
      assert (G1 : p_r_norm (UpdateOrder 2 0 p1) = rho)
        by apply (static_norm _ _ _ _ _ I2).
      rewrite G1.
      set (p2 := UpdateOrder 2 0 p1) in *.
      set (p3 := DCHECK p2 _).
      assert (I3 : invariant 3 (orders_before 2 1) 2 1 p3).
      { apply DCHECK_invariant; assumption. }
      assert (I4 : invariant 3 (orders_before 2 2) 2 2 (UpdateOrder 2 1 p3)).
      { apply update_invariant; try assumption.
        split; [lia | rewrite Z; discriminate]. }
      set (p4 := UpdateOrder 2 1 p3) in *.
      assert (I5 : invariant 3 (orders_before 2 3) 2 3 (UpdateOrder 2 2 p4)).
      { apply update_invariant; try assumption.
        split; [lia | rewrite Z; discriminate]. }
      exists (UpdateOrder 2 2 p4). split.
      + f_equal. unfold size_of. rewrite Z. cbn [Nat.add seq sum_over
          fold_right].
        assert (V0 : forall sR, order_potential factor (body_ g) 2 0 sR p2
                     = term_potential 2 0 sR).
        { intros sR. apply (order_values 2 0 sR vector_zero); try assumption.
          split; [lia | reflexivity]. }
        assert (V2 : forall sR, order_potential factor (body_ g) 2 2 sR
                       (UpdateOrder 2 2 p4) = term_potential 2 2 sR).
        { intros sR. apply (order_values 2 2 sR vector_zero); try assumption.
          split; [lia | rewrite Z; discriminate]. }
        rewrite V0, V2.
        change (term_potential 2 1 (damped_ratio 2 1)) with 0.
        unfold damped_ratio.
        change (inner_of 2 0) with (degree_inner 2).
        change (inner_of 2 2) with sectoral_inner. ring.
      + apply (degree_end 2); [lia|]. unfold size_of. rewrite Z. exact I5.
    - rewrite radial_quantity by assumption.
      set (p0 := UpdateDegree n p) in *.
      set (p1 := DCHECK p0 _).
      assert (I1 : invariant (S n) (orders_before n 0) n 0 p1).
      { apply DCHECK_invariant; assumption. }
      destruct (evaluate_seq Rplus 0
        (fun m p => OrderPotential factor (body_ g) n m
           (sigma (degree_inner n) rho * ratio n) p)
        (fun m p => invariant (S n) (orders_before n m) n m p)
        (fun m => term_potential n m (damped_ratio n m))
        (size_of n) 0%nat p1) as (p' & Ev & I'').
      + intros m q Hm Iq. unfold OrderPotential.
        assert (Al : allowed n m).
        { split; unfold size_of in Hm; destruct zonal; lia. }
        pose proof (update_invariant n m q Hn Al Iq) as Iq'.
        exists (UpdateOrder n m q). split; [|exact Iq'].
        f_equal. destruct (order_values n m
          (sigma (degree_inner n) rho * ratio n) vector_zero
          _ Hn Al Iq') as [-> _].
        unfold damped_ratio.
        replace (inner_of n m) with (degree_inner n); [reflexivity|].
        unfold inner_of. apply andb_false_iff in Case.
        destruct Case as [Case|Case]; [rewrite Case; reflexivity|].
        apply Nat.ltb_ge in Case.
        destruct (Nat.ltb_spec 0 m); [lia|]. rewrite andb_false_r. reflexivity.
      + exact I1.
      + exists p'. split; [exact Ev|]. apply degree_end; assumption.
  Qed.

  (* All the degrees up to N. *)
  Lemma all_degrees N p :
    (forall n, (2 <= n <= N)%nat -> reachable n) -> (1 <= N)%nat ->
    invariant 2 (order_limit 2) 2 0 p ->
    (exists p',
       evaluate add3 vector_zero
         (fun n p => DegreeAcceleration factor g (size_of n) n p)
         (seq 0 (N + 1)) p =
       (p', vector_sum (seq 0 (N + 1))
              (fun n => if Nat.ltb n 2 then vector_zero
                        else vector_sum (seq 0 (size_of n))
                               (fun m => term_acceleration n m
                                  (damped_ratio n m)
                                  (damped_gradient_of n m)))) /\
       (ok -> dchecks p' = true)) /\
    (exists p',
       evaluate Rplus 0
         (fun n p => DegreePotential factor g (size_of n) n p)
         (seq 0 (N + 1)) p =
       (p', sum_over (seq 0 (N + 1))
              (fun n => if Nat.ltb n 2 then 0
                        else sum_over (seq 0 (size_of n))
                               (fun m => term_potential n m
                                  (damped_ratio n m)))) /\
       (ok -> dchecks p' = true)).
  Proof.
    intros Hr HN I.
    set (J := fun n q => if Nat.ltb n 2 then invariant 2 (order_limit 2) 2 0 q
                         else invariant n (order_limit n) n 0 q).
    assert (Out : forall q, J (0 + (N + 1))%nat q -> ok -> dchecks q = true).
    { intros q Jq. unfold J in Jq. destruct (Nat.ltb_spec (0 + (N + 1)) 2);
        [lia|]. apply Jq. }
    assert (Small : forall n q, (n < 2)%nat -> J n q -> J (S n) q).
    { intros n q Hn Jq. unfold J in *. destruct (Nat.ltb_spec n 2); [|lia].
      destruct (Nat.ltb_spec (S n) 2); [exact Jq|].
      replace (S n) with 2%nat by lia. exact Jq. }
    split.
    - destruct (evaluate_seq add3 vector_zero
         (fun n p => DegreeAcceleration factor g (size_of n) n p) J
         (fun n => if Nat.ltb n 2 then vector_zero
                        else vector_sum (seq 0 (size_of n))
                               (fun m => term_acceleration n m
                                  (damped_ratio n m)
                                  (damped_gradient_of n m)))
         (N + 1) 0%nat p) as (p' & Ev & Jp').
      + intros n q Hn Jq. destruct (Nat.ltb_spec n 2) as [H|H].
        * exists q. split; [|apply Small; assumption].
          unfold DegreeAcceleration. destruct (Nat.ltb_spec n 2); [|lia].
          reflexivity.
        * unfold J in Jq. destruct (Nat.ltb_spec n 2); [lia|].
          destruct (degree_acceleration n q H (Hr n ltac:(lia)) Jq)
            as (q' & Eq & Iq).
          exists q'. split; [exact Eq|]. unfold J.
          destruct (Nat.ltb_spec (S n) 2); [lia | exact Iq].
      + exact I.
      + exists p'. split; [exact Ev | exact (Out p' Jp')].
    - destruct (evaluate_seq Rplus 0
         (fun n p => DegreePotential factor g (size_of n) n p) J
         (fun n => if Nat.ltb n 2 then 0
                        else sum_over (seq 0 (size_of n))
                               (fun m => term_potential n m
                                  (damped_ratio n m)))
         (N + 1) 0%nat p) as (p' & Ev & Jp').
      + intros n q Hn Jq. destruct (Nat.ltb_spec n 2) as [H|H].
        * exists q. split; [|apply Small; assumption].
          unfold DegreePotential. destruct (Nat.ltb_spec n 2); [|lia].
          reflexivity.
        * unfold J in Jq. destruct (Nat.ltb_spec n 2); [lia|].
          destruct (degree_potential n q H (Hr n ltac:(lia)) Jq)
            as (q' & Eq & Iq).
          exists q'. split; [exact Eq|]. unfold J.
          destruct (Nat.ltb_spec (S n) 2); [lia | exact Iq].
      + exact I.
      + exists p'. split; [exact Ev | exact (Out p' Jp')].
  Qed.
End Evaluation.
