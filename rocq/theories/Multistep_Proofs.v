(** Formulae which are linear in the values of a function and of its derivatives at equidistant points: when they hold for all
    the polynomials of some degree; the finite difference formulae and the coefficients of Adams-Moulton and of Cohen, Hubbard
    and Oesterwinter. *)
From Coq Require Import Reals ZArith QArith Qreals List Bool Arith Lra Lia.
From Verif Require Import OneStep_Model Multistep_Tables Multistep_Model.
Import ListNotations.
Open Scope R_scope.

(** * Specification *)
(** Polynomial functions of degree at most [d]. *)
Fixpoint horner (c : list R) (x : R) : R := match c with [] => 0 | a :: c => a + x * horner c x end.
Definition polynomial (d : nat) (p : R -> R) : Prop := exists c, (length c <= S d)%nat /\ forall x, p x = horner c x.
Definition derivative (f f' : R -> R) : Prop := forall x, derivable_pt_lim f x (f' x).
Definition sum_to (n : nat) (f : nat -> R) : R := fold_right Rplus 0 (map f (seq 0 n)).

(** * Derivatives of polynomials *)
Fixpoint psum (f : nat -> R) (c : list R) (k : nat) : R := match c with [] => 0 | a :: c => a * f k + psum f c (S k) end.
Lemma psum_ext : forall f g c k, (forall i, f i = g i) -> psum f c k = psum g c k.
Proof. induction c as [|a c IH]; intros k H; cbn; [reflexivity|]. rewrite H, IH; auto. Qed.
Lemma psum_scal : forall s f c k, psum (fun i => s * f i) c k = s * psum f c k.
Proof. induction c as [|a c IH]; intros k; cbn; [ring|]. rewrite IH; ring. Qed.
Lemma psum_zero : forall f c k, (forall i, (k <= i < k + length c)%nat -> f i = 0) -> psum f c k = 0.
Proof.
  induction c as [|a c IH]; intros k H; cbn; [reflexivity|].
  rewrite H by (cbn; lia). rewrite IH; [ring|]. intros i Hi. apply H. cbn; lia.
Qed.
Lemma psum_add : forall f g c k, psum (fun i => f i + g i) c k = psum f c k + psum g c k.
Proof. induction c as [|a c IH]; intros k; cbn; [ring|]. rewrite IH; ring. Qed.
Lemma psum_succ : forall f c k, psum f c (S k) = psum (fun i => f (S i)) c k.
Proof. induction c as [|a c IH]; intros k; cbn; [reflexivity|]. rewrite IH; reflexivity. Qed.
Lemma horner_psum : forall c x, horner c x = psum (fun k => x ^ k) c 0.
Proof.
  induction c as [|a c IH]; intros x; cbn; [reflexivity|]. rewrite IH, psum_succ.
  rewrite (psum_ext (fun i => x ^ S i) (fun i => x * x ^ i)) by (intros; reflexivity). rewrite (psum_scal x (fun k => x ^ k)). ring.
Qed.
(** k (k - 1) ... (k - o + 1) x^(k - o) *)
Definition falling (o k : nat) : Z :=
  match o with O => 1%Z | S O => Z.of_nat k | _ => (Z.of_nat k * (Z.of_nat k - 1))%Z end.
Definition dmono (o : nat) (x : R) (k : nat) : R := IZR (falling o k) * x ^ (k - o).
Lemma dmono_0 : forall x k, dmono 0 x k = x ^ k.
Proof. intros. unfold dmono, falling. rewrite Nat.sub_0_r. ring. Qed.
Lemma d_mono : forall o x k, (o <= 1)%nat -> derivable_pt_lim (fun x => dmono o x k) x (dmono (S o) x k).
Proof.
  intros o x k H. unfold dmono.
  replace (IZR (falling (S o) k) * x ^ (k - S o)) with (IZR (falling o k) * (INR (k - o) * x ^ pred (k - o))).
  - apply derivable_pt_lim_scal. apply derivable_pt_lim_pow.
  - replace (pred (k - o)) with (k - S o)%nat by lia. rewrite <- Rmult_assoc. f_equal.
    destruct o as [|[|o]]; [| |lia]; unfold falling.
    + rewrite Nat.sub_0_r, INR_IZR_INZ. ring.
    + rewrite INR_IZR_INZ, <- mult_IZR. f_equal.
      destruct k as [|k]; [reflexivity|]. rewrite Nat2Z.inj_sub by lia. reflexivity.
Qed.
Lemma d_psum : forall o c k x, (o <= 1)%nat ->
  derivable_pt_lim (fun x => psum (dmono o x) c k) x (psum (dmono (S o) x) c k).
Proof.
  intros o c k x H. revert k. induction c as [|a c IH]; intros k.
  - cbn. apply derivable_pt_lim_const.
  - change (derivable_pt_lim (plus_fct (mult_real_fct a (fun x => dmono o x k)) (fun x => psum (dmono o x) c (S k))) x
              (a * dmono (S o) x k + psum (dmono (S o) x) c (S k))).
    apply derivable_pt_lim_plus; [apply derivable_pt_lim_scal; apply d_mono; exact H|apply IH].
Qed.
Lemma derivable_ext : forall f g x l, (forall y, f y = g y) -> derivable_pt_lim f x l -> derivable_pt_lim g x l.
Proof. intros f g x l E H eps He. destruct (H eps He) as [d Hd]. exists d. intros y Hy Hd'. rewrite <- !E. apply Hd; assumption. Qed.

(** * A change of variable *)
Lemma mul_linear : forall l a x0 h, exists l', length l' = S (length l) /\
  forall u, a + (x0 + h * u) * horner l u = horner l' u.
Proof.
  induction l as [|b l IH]; intros a x0 h.
  - exists [a]. split; [reflexivity|]. intros u; cbn; ring.
  - destruct (IH (h * b) x0 h) as [l' [L E]]. exists ((a + x0 * b) :: l'). split; [cbn; congruence|].
    intros u. cbn. rewrite <- E. ring.
Qed.
Lemma shift_poly : forall c x0 h, exists c', length c' = length c /\ forall u, horner c (x0 + h * u) = horner c' u.
Proof.
  induction c as [|a c IH]; intros x0 h.
  - exists []. split; reflexivity.
  - destruct (IH x0 h) as [l [L E]]. destruct (mul_linear l a x0 h) as [l' [L' E']].
    exists l'. split; [cbn; congruence|]. intros u. rewrite <- E', <- E. reflexivity.
Qed.
Lemma chain : forall p p' x0 h u, derivative p p' -> derivable_pt_lim (fun u => p (x0 + h * u)) u (h * p' (x0 + h * u)).
Proof.
  intros p p' x0 h u D. rewrite Rmult_comm. apply (derivable_pt_lim_comp (fun u => x0 + h * u) p u h).
  - assert (D1 : derivable_pt_lim (plus_fct (fct_cte x0) (mult_real_fct h id)) u (0 + h * 1));
      [|rewrite Rplus_0_l, Rmult_1_r in D1; exact D1].
    apply derivable_pt_lim_plus; [apply derivable_pt_lim_const|apply derivable_pt_lim_scal; apply derivable_pt_lim_id].
  - apply D.
Qed.

(** * Formulae *)
(** The terms of a formula: a node, the order of the derivative (at most 2), the coefficient. *)
Definition Term := (Z * nat * Z)%type.
Definition term_at (k : nat) (t : Term) : Z :=
  let '(x, o, c) := t in (if Nat.leb o k then c * falling o k * x ^ Z.of_nat (k - o) else 0)%Z.
Definition at_mono (l : list Term) (k : nat) : Z := fold_right Z.add 0%Z (map (term_at k) l).
Definition exact_up_to (d : nat) (l : list Term) : bool :=
  forallb (fun t => Nat.leb (snd (fst t)) 2) l && forallb (fun k => Z.eqb (at_mono l k) 0) (seq 0 (S d)).
Definition pick (p p1 p2 : R -> R) (o : nat) : R -> R := match o with O => p | S O => p1 | _ => p2 end.
(** The value of the formula with the points x0 + h x. *)
Definition formula (l : list Term) (p p1 p2 : R -> R) (x0 h : R) : R :=
  fold_right Rplus 0 (map (fun t => let '(x, o, c) := t in IZR c * (h ^ o * pick p p1 p2 o (x0 + h * IZR x))) l).

Lemma falling_below : forall o k, (o <= 2)%nat -> (k < o)%nat -> falling o k = 0%Z.
Proof. intros [|[|[|o]]] k H1 H2; try lia; destruct k as [|[|k]]; try lia; reflexivity. Qed.
Lemma term_dmono : forall k x o c, (o <= 2)%nat -> IZR (term_at k (x, o, c)) = IZR c * dmono o (IZR x) k.
Proof.
  intros k x o c H. unfold term_at, dmono. destruct (Nat.leb o k) eqn:E.
  - rewrite !mult_IZR, <- pow_IZR. ring.
  - apply Nat.leb_gt in E. rewrite falling_below by assumption. ring.
Qed.
Lemma derivatives_shifted : forall c p p1 p2 x0 h, (forall x, p x = horner c x) -> derivative p p1 -> derivative p1 p2 ->
  exists c', length c' = length c /\
    forall o u, (o <= 2)%nat -> h ^ o * pick p p1 p2 o (x0 + h * u) = psum (dmono o u) c' 0.
Proof.
  intros c p p1 p2 x0 h E D1 D2. destruct (shift_poly c x0 h) as [c' [L E']]. exists c'. split; [exact L|].
  assert (P0 : forall u, p (x0 + h * u) = psum (dmono 0 u) c' 0).
  { intros u. rewrite E, E', horner_psum. apply psum_ext. intros; symmetry; apply dmono_0. }
  assert (P1 : forall u, h * p1 (x0 + h * u) = psum (dmono 1 u) c' 0).
  { intros u. apply (uniqueness_limite (fun u => p (x0 + h * u)) u).
    - apply chain, D1.
    - apply (derivable_ext (fun x => psum (dmono 0 x) c' 0)); [intros; symmetry; apply P0|apply d_psum; lia]. }
  assert (P2 : forall u, h ^ 2 * p2 (x0 + h * u) = psum (dmono 2 u) c' 0).
  { intros u. apply (uniqueness_limite (fun u => h * p1 (x0 + h * u)) u).
    - replace (h ^ 2 * p2 (x0 + h * u)) with (h * (h * p2 (x0 + h * u))) by ring.
      apply derivable_pt_lim_scal. apply chain, D2.
    - apply (derivable_ext (fun x => psum (dmono 1 x) c' 0)); [intros; symmetry; apply P1|apply d_psum; lia]. }
  intros o u H. destruct o as [|[|[|o]]]; [| | |lia]; cbn [pick].
  - rewrite <- P0. ring.
  - rewrite <- P1. ring.
  - apply P2.
Qed.
Lemma formula_exact : forall d l p p1 p2 x0 h, exact_up_to d l = true -> polynomial d p -> derivative p p1 -> derivative p1 p2 ->
  formula l p p1 p2 x0 h = 0.
Proof.
  intros d l p p1 p2 x0 h C [c [Lc E]] D1 D2.
  destruct (derivatives_shifted c p p1 p2 x0 h E D1 D2) as [c' [L P]].
  unfold exact_up_to in C. apply andb_prop in C. destruct C as [O C].
  assert (F : formula l p p1 p2 x0 h = psum (fun k => IZR (at_mono l k)) c' 0).
  { unfold formula, at_mono. clear C. revert O. induction l as [|[[x o] z] l IH]; intros O.
    - cbn. symmetry. apply psum_zero. reflexivity.
    - cbn [forallb snd fst] in O. apply andb_prop in O. destruct O as [O1 O2]. apply Nat.leb_le in O1.
      cbn [map fold_right]. rewrite IH by assumption. rewrite P by assumption.
      rewrite <- psum_scal, <- psum_add. apply psum_ext. intros i. rewrite plus_IZR, term_dmono by assumption. reflexivity. }
  rewrite F. apply psum_zero. intros i Hi. rewrite L in Hi. rewrite forallb_forall in C.
  specialize (C i). rewrite in_seq in C. specialize (C ltac:(lia)). apply Z.eqb_eq in C. rewrite C. reflexivity.
Qed.
(** A formula which is not exact for a power. *)
Lemma formula_power : forall l k h, forallb (fun t => Nat.leb (snd (fst t)) 2) l = true ->
  formula l (fun x => x ^ k) (fun x => dmono 1 x k) (fun x => dmono 2 x k) 0 h = h ^ k * IZR (at_mono l k).
Proof.
  intros l k h O. unfold formula, at_mono. induction l as [|[[x o] z] l IH].
  - cbn. ring.
  - cbn [forallb snd fst] in O. apply andb_prop in O. destruct O as [O1 O2]. apply Nat.leb_le in O1.
    cbn [map fold_right]. rewrite IH by assumption. rewrite plus_IZR, term_dmono by assumption.
    rewrite Rmult_plus_distr_l. f_equal.
    replace (pick (fun x => x ^ k) (fun x => dmono 1 x k) (fun x => dmono 2 x k) o (0 + h * IZR x))
      with (dmono o (h * IZR x) k).
    + unfold dmono. rewrite Rpow_mult_distr. destruct (Nat.le_gt_cases o k) as [E|E].
      * replace (h ^ k) with (h ^ o * h ^ (k - o)); [ring|]. rewrite <- pow_add. f_equal. lia.
      * rewrite falling_below by assumption. ring.
    + rewrite Rplus_0_l. destruct o as [|[|[|o]]]; [apply dmono_0|reflexivity|reflexivity|lia].
Qed.
Lemma power_derivatives : forall k, derivative (fun x => x ^ k) (fun x => dmono 1 x k)
                                 /\ derivative (fun x => dmono 1 x k) (fun x => dmono 2 x k).
Proof.
  intros k. split; intros x.
  - apply (derivable_ext (fun x => dmono 0 x k)); [intros; apply dmono_0|apply d_mono; lia].
  - apply d_mono; lia.
Qed.
Lemma power_polynomial : forall k, polynomial k (fun x => x ^ k).
Proof.
  intros k. exists (repeat 0 k ++ [1]). split; [rewrite app_length, repeat_length; cbn; lia|].
  intros x. induction k as [|k IH]; cbn; [ring|]. rewrite IH. ring.
Qed.
(** The derivative of a polynomial has a derivative. *)
Lemma second_derivative : forall d p p1, polynomial d p -> derivative p p1 -> exists p2, derivative p1 p2.
Proof.
  intros d p p1 [c [_ E]] D. exists (fun x => psum (dmono 2 x) c 0). intros x.
  apply (derivable_ext (fun x => psum (dmono 1 x) c 0)); [|apply d_psum; lia].
  intros y. apply (uniqueness_limite p y); [|apply D].
  apply (derivable_ext (fun x => psum (dmono 0 x) c 0)); [|apply d_psum; lia].
  intros z. rewrite E, horner_psum. apply psum_ext. intros; apply dmono_0.
Qed.
Lemma some_derivatives : forall d p, polynomial d p -> exists p1, derivative p p1.
Proof.
  intros d p [c [_ E]]. exists (fun x => psum (dmono 1 x) c 0). intros x.
  apply (derivable_ext (fun x => psum (dmono 0 x) c 0)); [|apply d_psum; lia].
  intros z. rewrite E, horner_psum. apply psum_ext. intros; apply dmono_0.
Qed.

(** * Sums *)
Lemma formula_app : forall l l' p p1 p2 x0 h, formula (l ++ l') p p1 p2 x0 h = formula l p p1 p2 x0 h + formula l' p p1 p2 x0 h.
Proof.
  intros. unfold formula. induction l as [|[[x o] c] l IH]; cbn [app map fold_right]; [ring|]. rewrite IH; ring.
Qed.
Lemma sum_to_S : forall n f, sum_to (S n) f = f 0%nat + sum_to n (fun i => f (S i)).
Proof. intros. unfold sum_to. cbn. rewrite <- seq_shift, map_map. reflexivity. Qed.
Lemma sum_to_ext : forall n f g, (forall i, (i < n)%nat -> f i = g i) -> sum_to n f = sum_to n g.
Proof. intros n f g H. unfold sum_to. f_equal. apply map_ext_in. intros i Hi. rewrite in_seq in Hi. apply H. lia. Qed.
(** The terms with the coefficients [l] at the nodes s, s - 1, ... or s, s + 1, ... *)
Fixpoint terms (o : nat) (s : Z) (node : Z) (l : list Z) : list Term :=
  match l with [] => [] | c :: l => (node, o, c) :: terms o s (node + s) l end.
Lemma terms_formula : forall o s l node p p1 p2 x0 h,
  formula (terms o s node l) p p1 p2 x0 h
  = h ^ o * sum_to (length l) (fun i => IZR (nth i l 0%Z) * pick p p1 p2 o (x0 + h * (IZR node + IZR s * INR i))).
Proof.
  intros o s l. induction l as [|c l IH]; intros; [unfold formula, sum_to; cbn; ring|].
  cbn [length]. rewrite sum_to_S. cbn [terms].
  change (formula ((node, o, c) :: terms o s (node + s) l) p p1 p2 x0 h)
    with (IZR c * (h ^ o * pick p p1 p2 o (x0 + h * IZR node)) + formula (terms o s (node + s) l) p p1 p2 x0 h).
  rewrite IH, Rmult_plus_distr_l. f_equal.
  - cbn [nth INR]. replace (IZR node + IZR s * 0) with (IZR node) by ring. ring.
  - f_equal. apply sum_to_ext. intros i _. cbn [nth]. f_equal. f_equal. f_equal. f_equal.
    rewrite plus_IZR, S_INR. ring.
Qed.
