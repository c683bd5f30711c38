(* The system has the properties of its points. *)
From Coq Require Import Reals List Permutation Bool Lra.
From Verif Require Import Geometry_Model Geometry_Proofs Geometry_Proofs2 MechanicalSystem_Model MechanicalSystem_Spec.
From Verif Require Import MechanicalSystem_Proofs.
Import ListNotations.
Local Open Scope R_scope.

Ltac v_ring := d3; red_all; apply mk3_eq; ring.
(* The system made of some bodies. *)
Definition add_body (s : MechanicalSystem) (b : body) : MechanicalSystem :=
  AddRigidBody s (handedness b) (motion b) (body_mass b) (inertia (points b)).
Definition system_of (bodies : list body) : MechanicalSystem := fold_left add_body bodies EmptySystem.

Definition quat_of b := linear (rt (motion b)).
Definition position_of b : R3 := fst (rm_apply (handedness b) (motion b) (zero3, zero3)).
Definition velocity_of b : R3 := snd (rm_apply (handedness b) (motion b) (zero3, zero3)).
Definition omega_of b : R3 := angular_velocity_of_from (handedness b) (motion b).
Definition tensor_of b : M3 := second (turned (handedness b) (quat_of b) (points b)).

Lemma point_motion b p : unit_q (quat_of b) ->
  rm_apply (handedness b) (motion b) (p, zero3) =
  (add3 (position_of b) (orth_vector (handedness b) (quat_of b) p),
   add3 (velocity_of b) (Cross (omega_of b) (orth_vector (handedness b) (quat_of b) p))).
Proof.
  intros U. unfold position_of, velocity_of, omega_of, angular_velocity_of_from, RMInverse, quat_of in *. cbn [omega].
  rewrite !rm_apply_eq by exact U. cbn [fst snd]. set (q := linear (rt (motion b))) in *. set (d := handedness b).
  assert (E : aff d (rt (motion b)) p = add3 (aff d (rt (motion b)) zero3) (orth_vector d q p)).
  { unfold aff. fold q. rewrite !orth_sub. generalize (orth_vector d q p), (orth_vector d q (from_origin (rt (motion b)))), (to_origin (rt (motion b))).
    intros x y z. replace (orth_vector d q zero3) with zero3; [v_ring|].
    rewrite orth_vector_eq. clear. destruct d, q as [r [i j k]]; cbv [smul3]; red_all; apply mk3_eq; ring. }
  rewrite E. f_equal. generalize (orth_vector d q p), (aff d (rt (motion b)) zero3), (orth_bivector d q (omega (motion b))), (orth_vector d q zero3), (orth_vector d q (vel (motion b))).
  intros. v_ring.
Qed.
Lemma material_points_eq b : unit_q (quat_of b) ->
  material_points b = map (fun p => (fst p, (add3 (position_of b) (snd p), add3 (velocity_of b) (Cross (omega_of b) (snd p)))))
                          (turned (handedness b) (quat_of b) (points b)).
Proof. intros U. unfold material_points, turned. rewrite map_map. apply map_ext. intros p. now rewrite point_motion. Qed.

Fixpoint msum {A} (f : A -> M3) (l : list A) : M3 := match l with [] => MZero | a :: l' => Madd (f a) (msum f l') end.
Lemma msum_app {A} (f : A -> M3) l l' : msum f (l ++ l') = Madd (msum f l) (msum f l').
Proof.
  induction l as [|a l IH]; cbn [msum app]; [|rewrite IH; generalize (f a), (msum f l)]; generalize (msum f l'); intros; dm; red_m; m_ring.
Qed.
Lemma system_eq bodies : system_of bodies =
  mkMechanicalSystem
    (match bodies with [] => None | _ => Some (sum3 (fun b => scal3 (body_mass b) (position_of b)) bodies, sum body_mass bodies) end)
    (match bodies with [] => None | _ => Some (sum3 (fun b => scal3 (body_mass b) (velocity_of b)) bodies, sum body_mass bodies) end)
    (map (fun b => ((position_of b, velocity_of b), body_mass b)) bodies)
    (sum3 (fun b => Anticommutator (tensor_of b) (omega_of b)) bodies)
    (msum tensor_of bodies).
Proof.
  induction bodies as [|b bodies IH] using rev_ind; [reflexivity|].
  unfold system_of. rewrite fold_left_app. fold (system_of bodies). rewrite IH. clear IH. cbn [fold_left]. unfold add_body, AddRigidBody.
  cbn [centre_of_mass_position centre_of_mass_velocity body_linear_motions sum_of_intrinsic_angular_momenta sum_of_inertia_tensors].
  rewrite inertia_second, anticommutator_inverse, second_turned. fold (quat_of b). fold (tensor_of b). fold (position_of b). fold (velocity_of b). fold (omega_of b).
  assert (NE : exists x y, bodies ++ [b] = x :: y) by (destruct bodies; [exists b, []; reflexivity|eexists; eexists; reflexivity]).
  destruct NE as (x & y & NE).
  assert (BC1 : forall f : body -> R3, BCAdd zero3 match bodies with [] => None | _ => Some (sum3 (fun b => scal3 (body_mass b) (f b)) bodies, sum body_mass bodies) end (f b) (body_mass b) =
    Some (sum3 (fun b => scal3 (body_mass b) (f b)) (bodies ++ [b]), sum body_mass (bodies ++ [b]))).
  { intros f. rewrite sum3_app, sum_app. unfold BCAdd. destruct bodies as [|b0 bodies].
    - f_equal. unfold sum3, sum. cbn [fold_right]. generalize (f b), (body_mass b). intros v m. f_equal; [v_ring|ring].
    - f_equal. generalize (sum3 (fun b => scal3 (body_mass b) (f b)) (b0 :: bodies)), (sum body_mass (b0 :: bodies)). intros s t.
      unfold sum3, sum. cbn [fold_right]. generalize (f b), (body_mass b). intros v m. f_equal; [v_ring|ring]. }
  rewrite !BC1. f_equal.
  - rewrite NE. reflexivity.
  - rewrite NE. reflexivity.
  - rewrite map_app. reflexivity.
  - rewrite sum3_app. generalize (sum3 (fun b0 => Anticommutator (tensor_of b0) (omega_of b0)) bodies).
    unfold sum3, sum. cbn [fold_right]. generalize (Anticommutator (tensor_of b) (omega_of b)). clear. intros w v. v_ring.
  - rewrite msum_app. cbn [msum]. generalize (msum tensor_of bodies), (tensor_of b). clear. intros. dm. red_m. m_ring.
Qed.

(* The frame of the system. *)
Lemma inverse_identity : OrthInverse RotIdentity = RotIdentity.
Proof. cbv [OrthInverse RotIdentity qreal Conjugate re im]. f_equal. red_all. apply mk3_eq; ring. Qed.
Lemma vector_identity v : orth_vector false RotIdentity v = v.
Proof. rewrite orth_vector_eq. d3. cbv [RotIdentity qreal]. red_all. apply mk3_eq; ring. Qed.
Lemma bivector_identity v : orth_bivector false RotIdentity v = v.
Proof. rewrite orth_bivector_eq. d3. cbv [RotIdentity qreal]. red_all. apply mk3_eq; ring. Qed.
Lemma form_identity f : symmetric f -> orth_form false RotIdentity f = f.
Proof.
  intros S. destruct f as [[xx xy xz] [yx yy yz] [zx zy zz]]. destruct S as (A & B & C). cbv [rx ry rz cx cy cz] in A, B, C. subst.
  cbv [orth_form RotForm]. rewrite !rotate_id.
  cbv [sig_form sig_vector MakeSignature SigCentralInversion SigIdentity SigXY sign_mul negb Bool.eqb sx sy sz smul]. red_all. apply mkM_eq; apply mk3_eq; field.
Qed.
Ltac identity_tac := cbv [rm_apply RMInverse RigidMotionOfFrom AffInverse aff rt linear from_origin to_origin omega vel fst snd];
  rewrite ?inverse_identity, ?vector_identity, ?bivector_identity.
Lemma to_system q v : let t := RMInverse false (RigidMotionOfFrom false (mkA zero3 q RotIdentity) zero3 v) in
  (forall x w, rm_apply false t (x, w) = (sub3 x q, sub3 w v)) /\
  (forall w, orth_bivector false (linear (rt t)) w = w) /\
  (forall f, symmetric f -> orth_form false (linear (rt t)) f = f).
Proof.
  cbv zeta. split; [|split].
  - intros x w. identity_tac. d3. red_all. f_equal; apply mk3_eq; ring.
  - intros w. identity_tac. reflexivity.
  - intros f S. identity_tac. now apply form_identity.
Qed.
Lemma linear_motion q v p w : rm_apply false (RigidMotionOfFrom false (mkA zero3 q RotIdentity) zero3 v) (p, w) = (add3 q p, add3 v w).
Proof. identity_tac. d3. red_all. f_equal; apply mk3_eq; ring. Qed.

Lemma fold_add {A} (f : A -> R3) l : forall i, fold_left (fun r a => add3 r (f a)) l i = add3 i (sum3 f l).
Proof.
  induction l as [|a l IH]; intros i; cbn [fold_left]; [|rewrite IH, sum3_cons; generalize (f a), (sum3 f l)]; intros; unfold sum3, sum; cbn [fold_right]; v_ring.
Qed.
Lemma fold_madd {A} (f : A -> M3) l : forall i, fold_left (fun r a => Madd r (f a)) l i = Madd i (msum f l).
Proof.
  induction l as [|a l IH]; intros i; cbn [fold_left msum]; [|rewrite IH; generalize (f a), (msum f l)]; intros; dm; red_m; m_ring.
Qed.

Lemma body_moments b : centred b ->
  first (turned (handedness b) (quat_of b) (points b)) = zero3 /\ sum fst (turned (handedness b) (quat_of b) (points b)) = body_mass b.
Proof.
  intros (U & Z). split; [|apply mass_turned]. rewrite first_turned. unfold first. rewrite Z. rewrite orth_vector_eq.
  destruct (handedness b), (quat_of b) as [r [i j k]]; cbv [smul3]; red_all; apply mk3_eq; ring.
Qed.
Lemma total_mass_eq bodies : total_mass (all_points bodies) = sum body_mass bodies.
Proof.
  unfold total_mass, all_points. rewrite sum_flat_map. apply sum_ext. intros b _. unfold material_points. rewrite sum_map. reflexivity.
Qed.
Lemma shifted a l : sum3 (fun p => scal3 (fst p) (add3 a (snd p))) l = add3 (scal3 (sum fst l) a) (first l).
Proof.
  induction l as [|p l IH]; [d3; red_m; apply mk3_eq; ring|]. rewrite sum3_cons, IH, first_cons. change (sum fst (p :: l)) with (fst p + sum fst l).
  generalize (sum fst l), (first l). intros s f. destruct p as [u p]. cbn [fst snd]. v_ring.
Qed.
Lemma turning w l : sum3 (fun p => scal3 (fst p) (Cross w (snd p))) l = Cross w (first l).
Proof.
  induction l as [|p l IH]; [d3; red_m; apply mk3_eq; ring|]. rewrite sum3_cons, IH, first_cons.
  generalize (first l). intros f. destruct p as [u p]. cbn [fst snd]. v_ring.
Qed.
Lemma first_moments bodies : Forall centred bodies ->
  sum3 (fun m => scal3 (fst m) (fst (snd m))) (all_points bodies) = sum3 (fun b => scal3 (body_mass b) (position_of b)) bodies /\
  sum3 (fun m => scal3 (fst m) (snd (snd m))) (all_points bodies) = sum3 (fun b => scal3 (body_mass b) (velocity_of b)) bodies.
Proof.
  intros C. rewrite Forall_forall in C. unfold all_points. rewrite !sum3_flat_map. split; apply sum3_ext; intros b I;
    rewrite material_points_eq by apply (C b I); rewrite sum3_map; cbn [fst snd]; destruct (body_moments b (C b I)) as (F & M).
  - rewrite shifted, F, M. generalize (position_of b), (body_mass b). intros. v_ring.
  - transitivity (add3 (scal3 (body_mass b) (velocity_of b)) (Cross (omega_of b) zero3)); [|generalize (scal3 (body_mass b) (velocity_of b)), (omega_of b); intros; v_ring].
    rewrite <- F, <- M, <- turning. set (l := turned (handedness b) (quat_of b) (points b)). clearbody l. clear F M.
    generalize (velocity_of b), (omega_of b). intros v w. induction l as [|p l IH]; [red_m; apply mk3_eq; ring|].
    rewrite !sum3_cons, IH. change (sum fst (p :: l)) with (fst p + sum fst l).
    generalize (sum fst l), (sum3 (fun p => scal3 (fst p) (Cross w (snd p))) l). intros s f. destruct p as [u p]. cbn [fst snd]. v_ring.
Qed.
Lemma momentum_eq bodies q v : Forall centred bodies ->
  momentum (all_points bodies) q v =
  sum3 (fun b => add3 (scal3 (body_mass b) (Cross (sub3 (position_of b) q) (sub3 (velocity_of b) v))) (Anticommutator (tensor_of b) (omega_of b))) bodies.
Proof.
  intros C. rewrite Forall_forall in C. unfold momentum, all_points. rewrite sum3_flat_map. apply sum3_ext. intros b I.
  rewrite material_points_eq by apply (C b I). rewrite sum3_map. cbn [fst snd]. destruct (body_moments b (C b I)) as (F & M).
  transitivity (sum3 (fun p => scal3 (fst p) (Cross (add3 (sub3 (position_of b) q) (snd p)) (add3 (sub3 (velocity_of b) v) (Cross (omega_of b) (snd p)))))
    (turned (handedness b) (quat_of b) (points b))).
  { apply sum3_ext. intros p _. f_equal. f_equal; generalize (position_of b), (velocity_of b), (Cross (omega_of b) (snd p)), (snd p); intros; v_ring. }
  rewrite momentum_points, F, M. fold (tensor_of b). generalize (Anticommutator (tensor_of b) (omega_of b)), (omega_of b), (velocity_of b), (position_of b), (body_mass b).
  intros. v_ring.
Qed.
Lemma second_app l l' : second (l ++ l') = Madd (second l) (second l').
Proof.
  induction l as [|a l IH]; cbn [second app]; [|rewrite IH; generalize (Mscal (fst a) (KroneckerProduct (snd a) (snd a))), (second l)]; generalize (second l'); intros; dm; red_m; m_ring.
Qed.
Lemma inertia_eq bodies q : Forall centred bodies ->
  inertia_about (all_points bodies) q =
  FormAnticommutator (msum (fun b => Madd (Mscal (body_mass b) (SymmetricSquare (sub3 (position_of b) q))) (tensor_of b)) bodies).
Proof.
  intros C. unfold inertia_about. rewrite inertia_second. f_equal. induction bodies as [|b bodies IH]; [reflexivity|].
  inversion C as [|? ? CB CR]; subst. cbn [msum]. rewrite <- IH by exact CR. change (all_points (b :: bodies)) with (material_points b ++ all_points bodies).
  rewrite map_app, second_app. f_equal.
  rewrite material_points_eq by apply CB. rewrite map_map. cbn [fst snd]. destruct (body_moments b CB) as (F & M).
  transitivity (second (map (fun p => (fst p, add3 (sub3 (position_of b) q) (snd p))) (turned (handedness b) (quat_of b) (points b)))).
  { f_equal. apply map_ext. intros p. f_equal. generalize (position_of b), (snd p). intros. v_ring. }
  rewrite second_shift, F, M. fold (tensor_of b). unfold SymmetricSquare. generalize (tensor_of b), (sub3 (position_of b) q), (body_mass b).
  intros. dm. red_m. m_ring.
Qed.
Lemma msum_symmetric bodies : symmetric (msum tensor_of bodies).
Proof.
  induction bodies as [|b bodies IH]; [repeat split|]. cbn [msum]. pose proof (second_symmetric (turned (handedness b) (quat_of b) (points b))) as S.
  fold (tensor_of b) in S. revert IH S. generalize (msum tensor_of bodies), (tensor_of b). intros m m' (A & B & C) (A' & B' & C'). dm. red_all. subst. repeat split; ring.
Qed.

(* The results. *)
Lemma centre bodies : bodies <> [] ->
  centre_of_mass (system_of bodies) =
  Some (div3 (sum3 (fun b => scal3 (body_mass b) (position_of b)) bodies) (sum body_mass bodies),
        div3 (sum3 (fun b => scal3 (body_mass b) (velocity_of b)) bodies) (sum body_mass bodies)).
Proof.
  intros N. rewrite system_eq. unfold centre_of_mass, BCGet. cbn [centre_of_mass_position centre_of_mass_velocity].
  destruct bodies as [|b bodies]; [contradiction|]. f_equal. f_equal;
  [generalize (div3 (sum3 (fun b0 => scal3 (body_mass b0) (position_of b0)) (b :: bodies)) (sum body_mass (b :: bodies)))
  |generalize (div3 (sum3 (fun b0 => scal3 (body_mass b0) (velocity_of b0)) (b :: bodies)) (sum body_mass (b :: bodies)))]; intros; v_ring.
Qed.
Lemma system_mass bodies : mass (system_of bodies) = total_mass (all_points bodies).
Proof. rewrite total_mass_eq, system_eq. unfold mass. cbn [centre_of_mass_position]. destruct bodies; reflexivity. Qed.
Lemma system_centre bodies : Forall centred bodies -> total_mass (all_points bodies) <> 0 ->
  exists q v, centre_of_mass (system_of bodies) = Some (q, v) /\ is_centre (all_points bodies) q v.
Proof.
  intros C N. assert (NE : bodies <> []) by (intros ->; apply N; reflexivity). rewrite (centre _ NE). eexists. eexists. split; [reflexivity|].
  destruct (first_moments bodies C) as (P & V). unfold is_centre. rewrite P, V. rewrite total_mass_eq in *. split;
  [generalize (sum3 (fun b0 => scal3 (body_mass b0) (position_of b0)) bodies)|generalize (sum3 (fun b0 => scal3 (body_mass b0) (velocity_of b0)) bodies)];
  intros [x y z]; cbv [scal3 div3 cx cy cz]; apply mk3_eq; field; exact N.
Qed.
Lemma system_motion bodies q v : centre_of_mass (system_of bodies) = Some (q, v) ->
  exists m, LinearMotion (system_of bodies) = Some m /\ forall p w, rm_apply false m (p, w) = (add3 q p, add3 v w).
Proof. intros E. unfold LinearMotion. rewrite E. eexists. split; [reflexivity|]. intros. apply linear_motion. Qed.
Lemma system_momentum bodies q v : Forall centred bodies -> centre_of_mass (system_of bodies) = Some (q, v) ->
  AngularMomentum (system_of bodies) = Some (momentum (all_points bodies) q v).
Proof.
  intros C E. unfold AngularMomentum, LinearMotion. rewrite E. destruct (to_system q v) as (T1 & T2 & _). cbv zeta. rewrite T2. f_equal.
  rewrite system_eq. cbn [body_linear_motions sum_of_intrinsic_angular_momenta]. rewrite momentum_eq by exact C.
  generalize (RMInverse false (RigidMotionOfFrom false (mkA zero3 q RotIdentity) zero3 v)) T1. intros t T. clear T1 T2 E.
  set (f := fun _ _ => _).
  assert (F : forall r b, f r b = add3 r (scal3 (snd b) (Cross (sub3 (fst (fst b)) q) (sub3 (snd (fst b)) v)))).
  { intros r [[x w] m]. unfold f. rewrite T. cbn [fst snd]. clear. v_ring. }
  clearbody f. 
  assert (G : forall l i, fold_left f l i = fold_left (fun r b => add3 r (scal3 (snd b) (Cross (sub3 (fst (fst b)) q) (sub3 (snd (fst b)) v)))) l i).
  { induction l as [|a l IH]; intros i; cbn [fold_left]; [reflexivity|]. rewrite IH, F. reflexivity. }
  rewrite G, fold_add, sum3_map. cbn [fst snd]. clear. induction bodies as [|b bodies IH]; [red_m; apply mk3_eq; ring|].
  rewrite !sum3_cons, <- IH.
  set (g := fun a => scal3 (body_mass a) _). set (h := fun a => Anticommutator (tensor_of a) (omega_of a)).
  cbn beta. fold (g b). fold (h b). clearbody g h.
  generalize (sum3 h bodies), (sum3 g bodies), (g b), (h b). clear. intros. v_ring.
Qed.
Lemma system_inertia bodies q v : Forall centred bodies -> centre_of_mass (system_of bodies) = Some (q, v) ->
  InertiaTensor (system_of bodies) = Some (inertia_about (all_points bodies) q).
Proof.
  intros C E. unfold InertiaTensor, LinearMotion. rewrite E. destruct (to_system q v) as (T1 & _ & T3). cbv zeta.
  rewrite T3 by (rewrite system_eq; apply msum_symmetric). f_equal. rewrite inertia_eq by exact C. f_equal.
  rewrite system_eq. cbn [body_linear_motions sum_of_inertia_tensors].
  generalize (RMInverse false (RigidMotionOfFrom false (mkA zero3 q RotIdentity) zero3 v)) T1. intros t T. clear T1 T3 E.
  set (f := fun _ _ => _).
  assert (F : forall r b, f r b = Madd r (Mscal (snd b) (SymmetricSquare (sub3 (fst (fst b)) q)))).
  { intros r [[x w] m]. unfold f. rewrite T. cbn [fst snd]. f_equal. f_equal. f_equal. clear. v_ring. }
  clearbody f.
  assert (G : forall l i, fold_left f l i = fold_left (fun r b => Madd r (Mscal (snd b) (SymmetricSquare (sub3 (fst (fst b)) q)))) l i).
  { induction l as [|a l IH]; intros i; cbn [fold_left]; [reflexivity|]. rewrite IH, F. reflexivity. }
  rewrite G, fold_madd. clear. induction bodies as [|b bodies IH]; [cbn [map msum]; red_m; m_ring|].
  cbn [map msum fst snd]. rewrite <- IH.
  generalize (msum tensor_of bodies), (tensor_of b), (Mscal (body_mass b) (SymmetricSquare (sub3 (position_of b) q))).
  match goal with |- context [msum ?g (map ?h bodies)] => generalize (msum g (map h bodies)) end. clear. intros. dm. red_m. m_ring.
Qed.
Lemma inertia_app w l : Mapp (inertia l) w = sum3 (fun p => scal3 (fst p) (Cross (snd p) (Cross w (snd p)))) l.
Proof.
  induction l as [|p l IH]; [d3; red_m; apply mk3_eq; ring|]. rewrite sum3_cons, <- IH, inertia_cons. generalize (inertia l). intros m. destruct p as [u p]. cbn [fst snd].
  dm. red_m. apply mk3_eq; ring.
Qed.
Lemma rigid_momentum l q v w : (forall m, In m l -> sub3 (snd (snd m)) v = Cross w (sub3 (fst (snd m)) q)) ->
  momentum l q v = Mapp (inertia_about l q) w.
Proof.
  intros H. unfold inertia_about. rewrite inertia_app, sum3_map. unfold momentum. apply sum3_ext. intros m I. cbn [fst snd]. now rewrite H.
Qed.
Lemma sum_permutation {A} (f : A -> R) l l' : Permutation.Permutation l l' -> sum f l = sum f l'.
Proof.
  induction 1 as [|a l l' P IH|a b l|l l' l'' P IH P' IH']; unfold sum in *; cbn [fold_right]; [reflexivity|now rewrite IH|ring|now rewrite IH].
Qed.
Lemma sum3_permutation {A} (f : A -> R3) l l' : Permutation.Permutation l l' -> sum3 f l = sum3 f l'.
Proof. intros P. unfold sum3. apply mk3_eq; now apply sum_permutation. Qed.
