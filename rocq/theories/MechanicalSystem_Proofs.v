(* The moments of the points of bodies. *)
From Coq Require Import Reals List Bool Lra.
From Verif Require Import Geometry_Model Geometry_Proofs Geometry_Proofs2 MechanicalSystem_Model MechanicalSystem_Spec.
Import ListNotations.
Local Open Scope R_scope.

(* Sums. *)
Lemma sum_app {A} (f : A -> R) l l' : sum f (l ++ l') = sum f l + sum f l'.
Proof.
  induction l as [|a l IH]; [symmetry; apply Rplus_0_l|]. change (f a + sum f (l ++ l') = f a + sum f l + sum f l'). rewrite IH. ring.
Qed.
Lemma sum_ext {A} (f g : A -> R) l : (forall a, In a l -> f a = g a) -> sum f l = sum g l.
Proof.
  induction l as [|a l IH]; intros H; [reflexivity|]. cbn. f_equal; [apply H; now left|]. apply IH. intros b B. apply H. now right.
Qed.
Lemma sum_map {A B} (f : B -> R) (g : A -> B) l : sum f (map g l) = sum (fun a => f (g a)) l.
Proof. induction l as [|a l IH]; [reflexivity|]. cbn. f_equal. exact IH. Qed.
Lemma sum_flat_map {A B} (f : B -> R) (g : A -> list B) l : sum f (flat_map g l) = sum (fun a => sum f (g a)) l.
Proof. induction l as [|a l IH]; [reflexivity|]. cbn [flat_map]. rewrite sum_app, IH. reflexivity. Qed.
Lemma sum3_cons {A} (f : A -> R3) a l : sum3 f (a :: l) = add3 (f a) (sum3 f l).
Proof. reflexivity. Qed.
Lemma sum3_app {A} (f : A -> R3) l l' : sum3 f (l ++ l') = add3 (sum3 f l) (sum3 f l').
Proof. unfold sum3. rewrite !sum_app. reflexivity. Qed.
Lemma sum3_ext {A} (f g : A -> R3) l : (forall a, In a l -> f a = g a) -> sum3 f l = sum3 g l.
Proof. intros H. unfold sum3. apply mk3_eq; apply sum_ext; intros a I; now rewrite (H a I). Qed.
Lemma sum3_map {A B} (f : B -> R3) (g : A -> B) l : sum3 f (map g l) = sum3 (fun a => f (g a)) l.
Proof. unfold sum3. now rewrite !sum_map. Qed.
Lemma sum3_flat_map {A B} (f : B -> R3) (g : A -> list B) l : sum3 f (flat_map g l) = sum3 (fun a => sum3 f (g a)) l.
Proof. unfold sum3. now rewrite !sum_flat_map. Qed.

(* The moments of points. *)
Definition first (l : list (R * R3)) : R3 := sum3 (fun p => scal3 (fst p) (snd p)) l.
Definition turned (d : bool) (q : Quaternion) (l : list (R * R3)) : list (R * R3) := map (fun p => (fst p, orth_vector d q (snd p))) l.
Fixpoint second (l : list (R * R3)) : M3 :=
  match l with
  | [] => MZero
  | p :: l' => Madd (Mscal (fst p) (KroneckerProduct (snd p) (snd p))) (second l')
  end.
Lemma first_cons p l : first (p :: l) = add3 (scal3 (fst p) (snd p)) (first l).
Proof. reflexivity. Qed.
Ltac red_m := cbv [inertia first sum3 sum fold_right second map fst snd FormAnticommutator AnticommutatorInverse Anticommutator SymmetricSquare KroneckerProduct MIdentity MZero] in *; red_all.
Ltac dm := repeat match goal with m : M3 |- _ => destruct m end; d3.
Lemma mkM_eq a b c a' b' c' : a = a' -> b = b' -> c = c' -> mkM a b c = mkM a' b' c'.
Proof. intros -> -> ->. reflexivity. Qed.
Ltac m_ring := apply mkM_eq; apply mk3_eq; ring.

Lemma anticommutator_inverse m : AnticommutatorInverse (FormAnticommutator m) = m.
Proof. dm. red_m. apply mkM_eq; apply mk3_eq; field. Qed.
Lemma anticommutator_app m w : Mapp (FormAnticommutator m) w = Anticommutator m w.
Proof. dm. red_m. apply mk3_eq; ring. Qed.
Lemma anticommutator_add a b : FormAnticommutator (Madd a b) = Madd (FormAnticommutator a) (FormAnticommutator b).
Proof. dm. red_m. m_ring. Qed.
Lemma inertia_cons p l : inertia (p :: l) = Madd (inertia [p]) (inertia l).
Proof. change (p :: l) with ([p] ++ l). unfold inertia. rewrite !sum3_app. reflexivity. Qed.
Lemma inertia_second l : inertia l = FormAnticommutator (second l).
Proof.
  induction l as [|p l IH].
  - red_m. m_ring.
  - rewrite inertia_cons, IH. cbn [second]. rewrite anticommutator_add. f_equal. destruct p as [u [x y z]]. red_m. m_ring.
Qed.
Lemma second_shift a l : second (map (fun p => (fst p, add3 a (snd p))) l) =
  Madd (Madd (Mscal (sum fst l) (KroneckerProduct a a)) (second l)) (Madd (KroneckerProduct a (first l)) (KroneckerProduct (first l) a)).
Proof.
  induction l as [|p l IH].
  - dm. red_m. m_ring.
  - cbn [map second]. rewrite IH, first_cons. change (sum fst (p :: l)) with (fst p + sum fst l).
    generalize (sum fst l), (second l), (first l). intros s m f. destruct p as [u p]. cbn [fst snd]. dm. red_m. m_ring.
Qed.
Lemma second_symmetric l : symmetric (second l).
Proof.
  induction l as [|p l IH]; [repeat split|]. cbn [second]. revert IH. generalize (second l). intros m (A & B & C).
  destruct p as [u p]. dm. red_m. subst. repeat split; ring.
Qed.
Lemma momentum_points a b w l :
  sum3 (fun p => scal3 (fst p) (Cross (add3 a (snd p)) (add3 b (Cross w (snd p))))) l =
  add3 (add3 (scal3 (sum fst l) (Cross a b)) (add3 (Cross a (Cross w (first l))) (Cross (first l) b))) (Anticommutator (second l) w).
Proof.
  induction l as [|p l IH].
  - d3. red_m. apply mk3_eq; ring.
  - rewrite sum3_cons, IH, first_cons. change (sum fst (p :: l)) with (fst p + sum fst l). cbn [second].
    generalize (sum fst l), (second l), (first l). intros s m f. destruct p as [u p]. cbn [fst snd]. dm. red_m. apply mk3_eq; ring.
Qed.
(* The points in inertial axes. *)
Lemma rotate_is_linear q : exists m, forall v, rotate q v = Mapp m v.
Proof.
  exists (Transpose (mkM (rotate q (mk3 1 0 0)) (rotate q (mk3 0 1 0)) (rotate q (mk3 0 0 1)))).
  intros v. dq. red_all. apply mk3_eq; ring.
Qed.
Ltac form_tac q :=
  cbv [orth_form orth_vector RotForm]; destruct (rotate_is_linear q) as [m E]; rewrite !E; clear E;
  repeat match goal with d : bool |- _ => destruct d end; dm;
  cbv [sig_form sig_vector MakeSignature SigCentralInversion SigIdentity SigXY sign_mul negb Bool.eqb sx sy sz smul]; red_m;
  apply mkM_eq; apply mk3_eq; field.
Lemma form_add d q a b : orth_form d q (Madd a b) = Madd (orth_form d q a) (orth_form d q b).
Proof. form_tac q. Qed.
Lemma form_scal d q k a : orth_form d q (Mscal k a) = Mscal k (orth_form d q a).
Proof. form_tac q. Qed.
Lemma form_square d q v : orth_form d q (KroneckerProduct v v) = KroneckerProduct (orth_vector d q v) (orth_vector d q v).
Proof. form_tac q. Qed.
Lemma second_turned d q l : orth_form d q (second l) = second (turned d q l).
Proof.
  induction l as [|p l IH].
  - destruct d; dq; dm; cbv [orth_form RotForm sig_form MakeSignature SigCentralInversion SigIdentity SigXY sign_mul negb Bool.eqb sx sy sz smul turned]; red_m; m_ring.
  - cbn [second turned map fst snd]. now rewrite form_add, form_scal, form_square, IH.
Qed.
Lemma first_turned d q l : first (turned d q l) = orth_vector d q (first l).
Proof.
  induction l as [|p l IH].
  - rewrite orth_vector_eq. destruct d; dq; cbv [smul3 turned]; red_m; apply mk3_eq; ring.
  - cbn [turned map]. rewrite !first_cons, orth_add, orth_scal. cbn [fst snd]. f_equal. exact IH.
Qed.
Lemma mass_turned d q l : sum fst (turned d q l) = sum fst l.
Proof. unfold turned. now rewrite sum_map. Qed.
