(** The Legendre polynomials of [Legendre_Spec]: derivatives, differential equation, values, orthogonality. *)
From Coq Require Import Reals Lra Lia List.
From Verif Require Import Legendre_Spec.
Open Scope R_scope.

Lemma legendres_snd : forall n x, snd (legendres n x) = legendre (S n) x.
Proof. intros n x. unfold legendre. cbn [legendres]. destruct (legendres n x). reflexivity. Qed.
Lemma legendre_0 : forall x, legendre 0 x = 1.
Proof. reflexivity. Qed.
Lemma legendre_1 : forall x, legendre 1 x = x.
Proof. reflexivity. Qed.
Lemma pos2 : forall n, INR n + 2 <> 0.
Proof. intros n. pose proof (pos_INR n). lra. Qed.
Lemma legendre_SS : forall n x, legendre (S (S n)) x = ((2 * INR n + 3) * x * legendre (S n) x - (INR n + 1) * legendre n x) / (INR n + 2).
Proof.
  intros n x. rewrite <- (legendres_snd (S n)), <- (legendres_snd n). unfold legendre. cbn [legendres].
  destruct (legendres n x) as [a b]. reflexivity.
Qed.
Lemma bonnet : forall n x, (INR n + 2) * legendre (S (S n)) x = (2 * INR n + 3) * x * legendre (S n) x - (INR n + 1) * legendre n x.
Proof. intros n x. rewrite legendre_SS. field. apply pos2. Qed.
Lemma pair_ind : forall P : nat -> Prop, P 0%nat -> P 1%nat -> (forall n, P n -> P (S n) -> P (S (S n))) -> forall n, P n.
Proof. intros P H0 H1 H n. enough (P n /\ P (S n)) by tauto. induction n as [|n [A B]]; auto. Qed.

Lemma legendre_at_1 : forall n, legendre n 1 = 1.
Proof.
  apply pair_ind; try reflexivity. intros n A B. rewrite legendre_SS, A, B. field. apply pos2.
Qed.
Lemma legendre_parity : forall n x, legendre n (- x) = (-1) ^ n * legendre n x.
Proof.
  intros n x. revert n. apply pair_ind.
  - rewrite !legendre_0. simpl. ring.
  - rewrite !legendre_1. simpl. ring.
  - intros n A B. rewrite !legendre_SS, A, B. cbn [pow]. field. apply pos2.
Qed.

(** The derivatives. *)
Fixpoint derivatives (n : nat) (x : R) : R * R :=
  match n with
  | O => (0, 1)
  | S n => let (a, b) := derivatives n x in (b, ((2 * INR n + 3) * (legendre (S n) x + x * b) - (INR n + 1) * a) / (INR n + 2))
  end.
Definition derivative (n : nat) (x : R) : R := fst (derivatives n x).
Lemma derivatives_snd : forall n x, snd (derivatives n x) = derivative (S n) x.
Proof. intros n x. unfold derivative. cbn [derivatives]. destruct (derivatives n x). reflexivity. Qed.
Lemma derivative_SS : forall n x, derivative (S (S n)) x =
  ((2 * INR n + 3) * (legendre (S n) x + x * derivative (S n) x) - (INR n + 1) * derivative n x) / (INR n + 2).
Proof.
  intros n x. rewrite <- (derivatives_snd (S n)), <- (derivatives_snd n). unfold derivative. cbn [derivatives].
  destruct (derivatives n x) as [a b]. reflexivity.
Qed.

Lemma dlim_ext : forall f g x a, (forall y, f y = g y) -> derivable_pt_lim f x a -> derivable_pt_lim g x a.
Proof. intros f g x a E H eps P. destruct (H eps P) as [d D]. exists d. intros h A B. rewrite <- !E. auto. Qed.
Lemma dlim_mult : forall f g x a b, derivable_pt_lim f x a -> derivable_pt_lim g x b -> derivable_pt_lim (fun y => f y * g y) x (a * g x + f x * b).
Proof. intros. apply (derivable_pt_lim_mult f g); assumption. Qed.
Lemma dlim_plus : forall f g x a b, derivable_pt_lim f x a -> derivable_pt_lim g x b -> derivable_pt_lim (fun y => f y + g y) x (a + b).
Proof. intros. apply (derivable_pt_lim_plus f g); assumption. Qed.
Lemma dlim_minus : forall f g x a b, derivable_pt_lim f x a -> derivable_pt_lim g x b -> derivable_pt_lim (fun y => f y - g y) x (a - b).
Proof. intros. apply (derivable_pt_lim_minus f g); assumption. Qed.
Lemma dlim_const : forall c x, derivable_pt_lim (fun _ => c) x 0.
Proof. intros. apply derivable_pt_lim_const. Qed.
Lemma dlim_id : forall x, derivable_pt_lim (fun y => y) x 1.
Proof. intros. apply derivable_pt_lim_id. Qed.
Lemma dlim_scale : forall c f x a, derivable_pt_lim f x a -> derivable_pt_lim (fun y => c * f y) x (c * a).
Proof. intros. apply derivable_pt_lim_scal. assumption. Qed.
Lemma dlim_value : forall f x a b, a = b -> derivable_pt_lim f x a -> derivable_pt_lim f x b.
Proof. intros. subst. assumption. Qed.

Lemma derivative_ok : forall n x, derivable_pt_lim (legendre n) x (derivative n x).
Proof.
  intros n x. revert n. apply pair_ind.
  - apply (dlim_ext (fun _ => 1)); [reflexivity | apply dlim_const].
  - apply (dlim_ext (fun y => y)); [reflexivity | apply dlim_id].
  - intros n A B.
    apply (dlim_ext (fun y => / (INR n + 2) * ((2 * INR n + 3) * (y * legendre (S n) y) - (INR n + 1) * legendre n y))).
    + intros y. rewrite legendre_SS. field. apply pos2.
    + eapply dlim_value; [| apply dlim_scale, dlim_minus; [apply dlim_scale, dlim_mult; [apply dlim_id | apply B] | apply dlim_scale, A]].
      rewrite derivative_SS. field. apply pos2.
Qed.

(** The relations between the polynomials and their derivatives. *)
Lemma derivative_relations : forall n x,
  derivative (S n) x - x * derivative n x = (INR n + 1) * legendre n x /\ x * derivative (S n) x - derivative n x = (INR n + 1) * legendre (S n) x.
Proof.
  induction n as [|n IH]; intros x.
  - change (derivative 1 x) with 1. change (derivative 0 x) with 0. rewrite legendre_0, legendre_1. simpl. split; ring.
  - destruct (IH x) as [A B]. rewrite S_INR.
    assert (D : derivative (S (S n)) x = x * derivative (S n) x + (INR n + 2) * legendre (S n) x).
    { rewrite derivative_SS. replace (derivative n x) with (x * derivative (S n) x - (INR n + 1) * legendre (S n) x) by lra. field. apply pos2. }
    split.
    + rewrite D. ring.
    + replace (INR n + 1 + 1) with (INR n + 2) by ring. rewrite bonnet, D.
      assert (E : (x * x - 1) * derivative (S n) x = (INR n + 1) * (x * legendre (S n) x - legendre n x)).
      { replace ((INR n + 1) * (x * legendre (S n) x - legendre n x)) with (x * ((INR n + 1) * legendre (S n) x) - (INR n + 1) * legendre n x) by ring.
        rewrite <- A, <- B. ring. }
      replace (x * (x * derivative (S n) x + (INR n + 2) * legendre (S n) x) - derivative (S n) x) with ((x * x - 1) * derivative (S n) x + (INR n + 2) * x * legendre (S n) x) by ring.
      rewrite E. ring.
Qed.
Lemma first_order : forall n x, (1 - x * x) * derivative (S n) x = (INR n + 1) * (legendre n x - x * legendre (S n) x).
Proof.
  intros n x. destruct (derivative_relations n x) as [A B].
  replace ((INR n + 1) * (legendre n x - x * legendre (S n) x)) with ((INR n + 1) * legendre n x - x * ((INR n + 1) * legendre (S n) x)) by ring.
  rewrite <- A, <- B. ring.
Qed.
(** Legendre's differential equation. *)
Lemma equation : forall n x, derivable_pt_lim (fun y => (1 - y * y) * derivative n y) x (- (INR n * (INR n + 1)) * legendre n x).
Proof.
  intros [|n] x.
  - apply (dlim_ext (fun _ => 0)); [intros y; change (derivative 0 y) with 0; ring |]. eapply dlim_value; [| apply dlim_const]. simpl. ring.
  - apply (dlim_ext (fun y => (INR n + 1) * (legendre n y - y * legendre (S n) y))); [intros y; symmetry; apply first_order |].
    eapply dlim_value; [| apply dlim_scale, dlim_minus; [apply derivative_ok | apply dlim_mult; [apply dlim_id | apply derivative_ok]]].
    destruct (derivative_relations n x) as [_ B].
    replace (derivative n x) with (x * derivative (S n) x - (INR n + 1) * legendre (S n) x) by lra. rewrite S_INR. ring.
Qed.

(** Integrals. *)
Lemma equal_derivatives : forall F G f, (forall x, derivable_pt_lim F x (f x)) -> (forall x, derivable_pt_lim G x (f x)) -> F 1 - F (-1) = G 1 - G (-1).
Proof.
  intros F G f A B.
  assert (D : forall x, derivable_pt_lim (fun y => F y - G y) x 0) by (intros x; eapply dlim_value; [| apply dlim_minus; [apply A | apply B]]; ring).
  pose (pr := fun x => exist _ 0 (D x) : derivable_pt (fun y => F y - G y) x).
  destruct (MVT_cor1 (fun y => F y - G y) (-1) 1 pr) as [c [E _]]; [lra |].
  replace (derive_pt (fun y => F y - G y) c (pr c)) with 0 in E by reflexivity. lra.
Qed.
Lemma integral_intro : forall f v F, (forall x, derivable_pt_lim F x (f x)) -> F 1 - F (-1) = v -> integral f v.
Proof.
  intros f v F A E. split; [exists F; exact A |]. intros G B. rewrite <- E. exact (equal_derivatives G F f B A).
Qed.
Lemma integral_elim : forall f v, integral f v -> exists F, (forall x, derivable_pt_lim F x (f x)) /\ F 1 - F (-1) = v.
Proof. intros f v [[F A] B]. exists F. split; auto. Qed.
Lemma integral_ext : forall f g v, (forall x, f x = g x) -> integral f v -> integral g v.
Proof.
  intros f g v E H. destruct (integral_elim f v H) as [F [A B]]. apply (integral_intro g v F); [| exact B]. intros x. rewrite <- E. apply A.
Qed.
Lemma integral_plus : forall f g u v, integral f u -> integral g v -> integral (fun x => f x + g x) (u + v).
Proof.
  intros f g u v H K. destruct (integral_elim f u H) as [F [A B]]. destruct (integral_elim g v K) as [G [C D]].
  apply (integral_intro _ _ (fun x => F x + G x)); [intros x; apply dlim_plus; auto | lra].
Qed.
Lemma integral_scale : forall c f v, integral f v -> integral (fun x => c * f x) (c * v).
Proof.
  intros c f v H. destruct (integral_elim f v H) as [F [A B]].
  apply (integral_intro _ _ (fun x => c * F x)); [intros x; apply dlim_scale; auto |]. rewrite <- B. ring.
Qed.

Lemma orthogonal : forall n m, n <> m -> integral (fun x => legendre n x * legendre m x) 0.
Proof.
  intros n m N.
  assert (K : INR n * (INR n + 1) - INR m * (INR m + 1) <> 0).
  { pose proof (pos_INR n). pose proof (pos_INR m). assert (INR n <> INR m) by (intros E; apply N, INR_eq, E).
    replace (INR n * (INR n + 1) - INR m * (INR m + 1)) with ((INR n - INR m) * (INR n + INR m + 1)) by ring. apply Rmult_integral_contrapositive. lra. }
  set (k := INR n * (INR n + 1) - INR m * (INR m + 1)) in *.
  apply (integral_intro _ _ (fun x => / k * (legendre n x * ((1 - x * x) * derivative m x) - legendre m x * ((1 - x * x) * derivative n x)))).
  - intros x. eapply dlim_value; [| apply dlim_scale, dlim_minus; apply dlim_mult; (apply derivative_ok || apply equation)].
    unfold k in *. field. exact K.
  - ring.
Qed.

(** The derivative of a polynomial is orthogonal to the polynomials of no lower degree. *)
Lemma derivative_step : forall n x, derivative (S (S n)) x = (2 * INR n + 3) * legendre (S n) x + derivative n x.
Proof.
  intros n x. destruct (derivative_relations (S n) x) as [A _]. destruct (derivative_relations n x) as [_ B]. rewrite S_INR in A.
  replace (derivative (S (S n)) x) with (x * derivative (S n) x + (INR n + 1 + 1) * legendre (S n) x) by lra.
  replace (x * derivative (S n) x) with (derivative n x + (INR n + 1) * legendre (S n) x) by lra. ring.
Qed.
Lemma derivative_orthogonal : forall m n, (m <= n)%nat -> integral (fun x => legendre n x * derivative m x) 0.
Proof.
  apply (pair_ind (fun m => forall n, (m <= n)%nat -> integral (fun x => legendre n x * derivative m x) 0)).
  - intros n _. apply (integral_intro _ _ (fun _ => 0)); [| ring]. intros x. eapply dlim_value; [| apply dlim_const]. change (derivative 0 x) with 0. ring.
  - intros n H. apply (integral_ext (fun x => legendre n x * legendre 0 x)).
    + intros x. change (derivative 1 x) with 1. rewrite legendre_0. ring.
    + apply orthogonal. lia.
  - intros m A _ n H.
    apply (integral_ext (fun x => (2 * INR m + 3) * (legendre n x * legendre (S m) x) + legendre n x * derivative m x)).
    + intros x. rewrite derivative_step. ring.
    + replace 0 with ((2 * INR m + 3) * 0 + 0) by ring. apply integral_plus; [apply integral_scale, orthogonal; lia | apply A; lia].
Qed.
Lemma norm : forall n, integral (fun x => legendre n x * legendre n x) (2 / (2 * INR n + 1)).
Proof.
  intros [|n].
  - apply (integral_intro _ _ (fun x => x)); [| simpl; field]. intros x. rewrite legendre_0. eapply dlim_value; [| apply dlim_id]. ring.
  - assert (A : integral (fun x => (2 * INR n + 3) * (legendre (S n) x * legendre (S n) x) + 2 * (legendre (S n) x * derivative n x)) 2).
    { apply (integral_intro _ _ (fun x => x * (legendre (S n) x * legendre (S n) x))).
      - intros x. eapply dlim_value; [| apply dlim_mult; [apply dlim_id | apply dlim_mult; apply derivative_ok]].
        destruct (derivative_relations n x) as [_ B].
        replace (derivative n x) with (x * derivative (S n) x - (INR n + 1) * legendre (S n) x) by lra. ring.
      - pose proof (legendre_parity (S n) 1) as Q. rewrite legendre_at_1, Rmult_1_r in Q. change (- (1)) with (-1) in Q. rewrite Q, legendre_at_1.
        rewrite <- Rpow_mult_distr. replace (-1 * -1) with 1 by ring. rewrite pow1. ring. }
    assert (P : 2 * INR n + 3 <> 0) by (pose proof (pos_INR n); lra).
    apply (integral_ext (fun x => / (2 * INR n + 3) * (((2 * INR n + 3) * (legendre (S n) x * legendre (S n) x) + 2 * (legendre (S n) x * derivative n x)) + -2 * (legendre (S n) x * derivative n x)))).
    + intros x. field. exact P.
    + rewrite S_INR. replace (2 / (2 * (INR n + 1) + 1)) with (/ (2 * INR n + 3) * (2 + -2 * 0)) by (field; lra).
      apply integral_scale, integral_plus; [exact A | apply integral_scale, derivative_orthogonal; lia].
Qed.
