(** The completion of the conic parameters from any two parameters. *)
From Coq Require Import Reals Lra Lia List Bool.
From Verif Require Import Geometry_Model RotatingBody_Model Kepler_Model Kepler_Proofs.
Import ListNotations.
Open Scope R_scope.

Definition two (k : Field -> Num) (i j : nat) (c : Fields) : Prop :=
  forall g, conic_field g -> c g = if (Nat.eqb (category g) i || Nat.eqb (category g) j)%bool then Some (k g) else None.
Definition main_field (g : Field) : bool :=
  match g with
  | eccentricity | semimajor_axis | semiminor_axis | impact_parameter | semilatus_rectum
  | periapsis_distance | apoapsis_distance => true
  | _ => false
  end.
Definition all_main (k : Field -> Num) (i j : nat) (c : Fields) : Prop :=
  forall g, conic_field g ->
    c g = if (Nat.eqb (category g) i || Nat.eqb (category g) j || main_field g)%bool then Some (k g) else None.

Ltac fetch2 H := repeat match goal with |- context [?c ?g] =>
  match type of c with Fields => rewrite (H g I) end end; cbn [category Nat.eqb orb main_field].
Ltac fields_cases g := destruct g; try (intros []; fail); intros _.

Lemma with_values_skip c f g k o : c f = None \/ c g = None -> with_values c f g k o = o.
Proof. unfold with_values. intros [H|H]; rewrite H; [reflexivity|]. destruct (c f); reflexivity. Qed.
Lemma with_values_hit c f g k o x y : c f = Some x -> c g = Some y -> with_values c f g k o = k x y.
Proof. intros F G. unfold with_values. rewrite F, G. reflexivity. Qed.
Ltac walk T :=
  repeat rewrite with_values_skip by (rewrite !T by exact I; cbn [category Nat.eqb orb]; auto; fail);
  try (erewrite with_values_hit by (rewrite T by exact I; reflexivity)).

Ltac triv := match goal with |- ?x = ?x => reflexivity end.
Ltac sq' y HE := match goal with
  | |- context [nsqrt (Fin ?x)] =>
    rewrite (nsqrt_is x y); [fins | solve [pos | nra] | solve [field [HE]; repeat split; solve [nonzero]]]
  end.
Ltac sqn' y HE := match goal with
  | |- context [nsqrt (Fin ?x)] =>
    rewrite (nsqrt_neg x y); [fins | solve [pos] | solve [field [HE]; repeat split; solve [nonzero]]]
  end.
Ltac finish' HE := try triv; f_equal; f_equal; field [HE]; repeat split; solve [nonzero].

Lemma ell_from_two k i j c : is_ell k -> (1 <= i)%nat -> (i < j <= 6)%nat -> two (ell k) i j c ->
  all_main (ell k) i j (complete_from_two c).
Proof.
  destruct k as [n a e s]. intros (N & A & E & S & ES) I1 IJ T. cbn [c_n c_a c_e c_s] in *.
  assert (HE : e * e = 1 - s * s) by lra.
  assert (D1 : 1 - e <> 0) by lra. assert (D2 : 1 + e <> 0) by lra. assert (D3 : 1 - e ^ 2 <> 0) by nra.
  assert (R1 : (a * s) ^ 2 + (a * (1 - e)) ^ 2 = 2 * a * a * (1 - e)) by ring [HE].
  assert (R2 : (a * s) ^ 2 + (a * (1 + e)) ^ 2 = 2 * a * a * (1 + e)) by ring [HE].
  assert (R3 : 2 * (a * (1 - e)) - a * (s * s) = a * (1 - e) * (1 - e)) by ring [HE].
  assert (R4 : 2 * (a * (1 + e)) - a * (s * s) = a * (1 + e) * (1 + e)) by ring [HE].
  assert (i = 1 \/ i = 2 \/ i = 3 \/ i = 4 \/ i = 5)%nat as Hi by lia.
  assert (j = 2 \/ j = 3 \/ j = 4 \/ j = 5 \/ j = 6)%nat as Hj by lia.

  destruct Hi as [-> | [-> | [-> | [-> | ->]]]]; destruct Hj as [-> | [-> | [-> | [-> | ->]]]]; try (exfalso; lia); clear I1 IJ;
    unfold complete_from_two; walk T; unfold b_squared; fetch2 T; cbn [ell c_n c_a c_e c_s ngt];
    intros g; fields_cases g; cbn [sets fold_left fst snd set field_eqb]; try (fetch2 T; cbn [ell c_n c_a c_e c_s]);
    try triv; fins.
  all: repeat match goal with |- context [Rlt_dec 1 ?x] => destruct (Rlt_dec 1 x); [lra|] end.
  all: try (rewrite (Rabs_right (1 - e ^ 2)) by nra).
  all: rewrite ?R1, ?R2, ?R3, ?R4.
  all: divs2.
  all: repeat (first [sq' s HE | sq' (a * s) HE | sq' e HE | sq' (a * e) HE | sqn' s HE | sqn' (a * s) HE]; divs2).
  all: try solve [finish' HE].
  all: unfold nsign, lift2; destruct (Rlt_dec a 0); [lra|]; finish' HE.
Qed.

Lemma hyp_from_two k i j c : is_hyp k -> (1 <= i)%nat -> (i < j <= 6)%nat -> two (hyp k) i j c ->
  all_main (hyp k) i j (complete_from_two c).
Proof.
  destruct k as [n a e s]. intros (N & A & E & S & ES) I1 IJ T. cbn [c_n c_a c_e c_s] in *.
  assert (HE : e * e = 1 + s * s) by lra.
  assert (D1 : 1 - e <> 0) by lra. assert (D2 : 1 + e <> 0) by lra. assert (D3 : 1 - e ^ 2 <> 0) by nra.
  assert (D1' : e - 1 <> 0) by lra. assert (D2' : e + 1 <> 0) by lra.
  assert (R1 : - (a * s) ^ 2 + (a * (e - 1)) ^ 2 = - (2 * a * a * (e - 1))) by ring [HE].
  assert (R2 : - (a * s) ^ 2 + (- (a * (e + 1))) ^ 2 = 2 * a * a * (e + 1)) by ring [HE].
  assert (R3 : 2 * (a * (e - 1)) - a * (s * s) = - (a * (e - 1) * (e - 1))) by ring [HE].
  assert (R4 : 2 * (- (a * (e + 1))) - a * (s * s) = - (a * (e + 1) * (e + 1))) by ring [HE].
  assert (R5 : - (a * (e + 1)) + a * (e - 1) = - (2 * a)) by ring.
  assert (i = 1 \/ i = 2 \/ i = 3 \/ i = 4 \/ i = 5)%nat as Hi by lia.
  assert (j = 2 \/ j = 3 \/ j = 4 \/ j = 5 \/ j = 6)%nat as Hj by lia.
  destruct Hi as [-> | [-> | [-> | [-> | ->]]]]; destruct Hj as [-> | [-> | [-> | [-> | ->]]]]; try (exfalso; lia); clear I1 IJ;
    unfold complete_from_two; walk T; unfold b_squared; fetch2 T; cbn [hyp c_n c_a c_e c_s ngt];
    intros g; fields_cases g; cbn [sets fold_left fst snd set field_eqb]; try (fetch2 T; cbn [hyp c_n c_a c_e c_s]);
    try triv; fins.
  all: repeat match goal with |- context [Rlt_dec 1 ?x] => destruct (Rlt_dec 1 x); [|lra] end.
  all: try (rewrite (Rabs_left (1 - e ^ 2)) by nra).
  all: rewrite ?R1, ?R2, ?R3, ?R4, ?R5.
  all: divs2.
  all: repeat (first [sq' s HE | sq' (a * s) HE | sq' e HE | sq' (a * e) HE | sqn' s HE | sqn' (a * s) HE]; divs2).
  all: try solve [finish' HE].
  all: try solve [unfold nsign, lift2; destruct (Rlt_dec (- a) 0); [|lra]; finish' HE].
Qed.
