(** C42: hierarchical systems. *)
From Coq Require Import Reals List Bool Arith Lra Lia Permutation.
From Verif Require Import Geometry_Model Hierarchy_Model Hierarchy_Proofs Hierarchy_Proofs2.
Import ListNotations.
Open Scope R_scope.

(** Every body is returned exactly once; the barycentre of the system is motionless at the origin; the barycentre of each
    satellite is with respect to the bodies inside it as its elements specify, at each level of the hierarchy.  The elements of
    the satellites of a body must be of the same kind. *)
Theorem C42_layout_partial order s :
  sorts order -> well_formed s ->
  exists bs dofs, ConsumeBarycentricSystem order s = Some (bs, dofs) /\
    length bs = length dofs /\
    laid_out s dzero (combine bs dofs) /\
    Permutation bs (all_bodies s) /\
    moment (combine bs dofs) = dzero.
Proof. exact (consume order s). Qed.
Print Assumptions C42_layout_partial.

(** Two satellites whose elements are of different kinds, each sufficient for a KeplerOrbit, are a fatal error. *)
Theorem C42_layout_refuted :
  exists s e1 e2, s = mkSystem (mkBody 0 1) [(e1, mkSystem (mkBody 1 1) []); (e2, mkSystem (mkBody 2 1) [])] /\
    semimajor_axis e1 = Some 1 /\ mean_motion e1 = None /\ period e1 = None /\
    semimajor_axis e2 = None /\ mean_motion e2 = None /\ period e2 = Some 1 /\
    ConsumeBarycentricSystem insertion_order s = None.
Proof.
  exists (mkSystem (mkBody 0 1) [(mkElements (Some 1) None None (fun _ => dzero), mkSystem (mkBody 1 1) []);
                                 (mkElements None None (Some 1) (fun _ => dzero), mkSystem (mkBody 2 1) [])]).
  exists (mkElements (Some 1) None None (fun _ => dzero)), (mkElements None None (Some 1) (fun _ => dzero)). repeat split.
Qed.
Print Assumptions C42_layout_refuted.

(** The satellites are ordered by increasing semimajor axes, even if what is given is the mean motions or the periods. *)
Theorem C42_axes s c l :
  laid_out s c l -> well_formed s -> positive l ->
  exists x ordered,
    Permutation (let (_, satellites) := s in satellites) ordered /\
    satellites_laid [(primary_of s, x)] ordered l /\
    forall pre e1 s1 mid e2 s2 post, ordered = pre ++ (e1, s1) :: mid ++ (e2, s2) :: post ->
    exists inner1 c1 g1 inner2 c2 g2 rest1 rest2,
      l = inner1 ++ g1 ++ rest1 /\ laid_out s1 c1 g1 /\ l = inner2 ++ g2 ++ rest2 /\ laid_out s2 c2 g2 /\
      dsub c1 (barycentre inner1) = state_vectors e1 (mass inner1 + mass g1) /\
      dsub c2 (barycentre inner2) = state_vectors e2 (mass inner2 + mass g2) /\
      forall a1 a2,
        is_semimajor_axis (mass inner1 + mass g1) e1 a1 ->
        is_semimajor_axis (mass inner2 + mass g2) e2 a2 -> a1 <= a2.
Proof. exact (axes_in_order s c l). Qed.
Print Assumptions C42_axes.

(** [Add] adds the body once, if its parent is known; if not, a null pointer is dereferenced. *)
Theorem C42_add s body parent elements :
  NoDup (addresses s) ->
  (Add s body parent elements = None <-> ~ In parent (addresses s)) /\
  forall s', Add s body parent elements = Some s' ->
    Permutation (all_bodies s') (body :: all_bodies s) /\
    (~ In (address body) (addresses s) -> NoDup (addresses s')).
Proof. exact (add_spec s body parent elements). Qed.
Print Assumptions C42_add.

(** The contract of the sort can be satisfied. *)
Theorem C42_sort : sorts insertion_order.
Proof. exact insertion_sorts. Qed.
Print Assumptions C42_sort.

(** A star, two planets given from the outermost, and a moon of the outermost one. *)
Definition at_x (x v : R) : R -> DoF := fun _ => (mk3 x 0 0, mk3 0 v 0).
Definition star := mkBody 0 6.
Definition outer_planet := mkBody 1 2.
Definition inner_planet := mkBody 2 2.
Definition moon := mkBody 3 2.
Definition example_system : option System :=
  match Add (mkSystem star []) outer_planet 0 (mkElements (Some 30) None None (at_x 30 3)) with
  | None => None
  | Some s =>
      match Add s inner_planet 0 (mkElements (Some 8) None None (at_x 8 4)) with
      | None => None
      | Some s => Add s moon 1 (mkElements None (Some 5) None (at_x 1 2))
      end
  end.
(** The steps of the computation. *)
Lemma to_barycentric order p sats indices converted sorted j dofs bs b result :
  order (map fst sats) = Some indices ->
  map (fun x => match ToBarycentric order (snd x) with Some r => Some (fst x, r) | None => None end) sats = map Some converted ->
  map (nth_error converted) indices = map Some sorted ->
  fold_left satellite_step sorted (Some (JacobiCoordinates p, [], [p])) = Some (j, dofs, bs) ->
  BarycentricDegreesOfFreedom j = Some b -> place b dofs = Some result ->
  ToBarycentric order (mkSystem p sats) = Some (mkSub (JSystem j) bs result).
Proof.
  intros O C S F B P. cbn [ToBarycentric]. rewrite O. cbn [bind]. rewrite (proj2 (all_some_spec _ _) C). cbn [bind].
  rewrite (proj2 (all_some_spec _ _) S). cbn [bind]. rewrite F. cbn [bind]. rewrite B. cbn [bind]. rewrite P. reflexivity.
Qed.
Lemma step dofs l s w el r c s' bs : w <> 0 -> equivalent_body r <> 0 ->
  dadd (ddiv s w) (state_vectors el (w + equivalent_body r)) = c -> dadd s (dscal (equivalent_body r) c) = s' ->
  satellite_step (Some (mkJacobi l (Some (s, w)), dofs, bs)) (el, r) =
  Some (mkJacobi (l ++ [c]) (Some (s', w + equivalent_body r)), dofs ++ [barycentric_degrees_of_freedom r], bs ++ bodies r).
Proof.
  intros W M <- <-. unfold satellite_step, JAddElements, JAdd, JSystem. cbn [bind system_barycentre_ primocentric_dof_ CalculatorGet CalculatorWeight CalculatorAdd].
  assert (Z : forall d, dadd dzero d = d) by (intros; de). assert (Z' : forall d, dsub d dzero = d) by (intros; de). now rewrite Z, Z'.
Qed.
Lemma start p : JacobiCoordinates p = mkJacobi [dzero] (Some (dzero, mu p)).
Proof. unfold JacobiCoordinates, CalculatorAdd. do 3 f_equal. de. Qed.
Ltac dof := unfold at_x; apply dof_ext; du; field.
Ltac dofs := repeat (apply f_equal2; [dof|]); reflexivity.
Example C42_example :
  exists s, example_system = Some s /\ well_formed s /\
    ConsumeBarycentricSystem insertion_order s =
    Some ([star; inner_planet; outer_planet; moon],
          [(mk3 (-12) 0 0, mk3 0 (-2) 0); (mk3 (-4) 0 0, mk3 0 2 0);
           (mk3 (39 / 2) 0 0, mk3 0 1 0); (mk3 (41 / 2) 0 0, mk3 0 3 0)]).
Proof.
  eexists. split; [reflexivity|]. split.
  - cbn. split; [lra|]. split; [left; intros k [<-|[<-|[]]]; discriminate|]. split; [|split; [|exact I]].
    + split; [lra|]. split; [|split; [|exact I]].
      * right; left. intros k [<-|[]]. split; [reflexivity|discriminate].
      * split; [lra|]. split; [left; intros k []|exact I].
    + split; [lra|]. split; [left; intros k []|exact I].
  - assert (O : insertion_order [mkElements (Some 30) None None (at_x 30 3); mkElements (Some 8) None None (at_x 8 4)] = Some [1; 0]%nat).
    { unfold insertion_order. cbn. unfold Rltb. destruct (Rlt_dec 8 30); [reflexivity|lra]. }
    assert (LEAF : forall b, mu b = 2 -> ToBarycentric insertion_order (mkSystem b []) = Some (mkSub 2 [b] [dzero])).
    { intros b E. rewrite (to_barycentric insertion_order b [] [] [] [] (mkJacobi [dzero] (Some (dzero, mu b))) [] [b] [dzero] [dzero]);
        [now rewrite <- E|reflexivity..|cbn [fold_left]; now rewrite start| |].
      - unfold BarycentricDegreesOfFreedom. cbn [CalculatorGet system_barycentre_ primocentric_dof_ map]. rewrite E. f_equal. dofs.
      - unfold place. cbn [map combine concat]. f_equal. dofs. }
    assert (PAIR : ToBarycentric insertion_order (mkSystem outer_planet [(mkElements None (Some 5) None (at_x 1 2), mkSystem moon [])]) =
                   Some (mkSub (2 + 2) [outer_planet; moon] [(mk3 (- (1 / 2)) 0 0, mk3 0 (-1) 0); (mk3 (1 / 2) 0 0, mk3 0 1 0)])).
    { rewrite (to_barycentric insertion_order outer_planet _ [0%nat] [(mkElements None (Some 5) None (at_x 1 2), mkSub 2 [moon] [dzero])]
                 [(mkElements None (Some 5) None (at_x 1 2), mkSub 2 [moon] [dzero])]
                 (mkJacobi [dzero; (mk3 1 0 0, mk3 0 2 0)] (Some ((mk3 2 0 0, mk3 0 4 0), 2 + 2))) [[dzero]] [outer_planet; moon]
                 [(mk3 (- (1 / 2)) 0 0, mk3 0 (-1) 0); (mk3 (1 / 2) 0 0, mk3 0 1 0)] [(mk3 (- (1 / 2)) 0 0, mk3 0 (-1) 0); (mk3 (1 / 2) 0 0, mk3 0 1 0)]); [reflexivity..| | | | |].
      - cbn [map snd fst]. now rewrite (LEAF moon eq_refl).
      - reflexivity.
      - rewrite start. cbn [fold_left]. rewrite (step [] [dzero] dzero (mu outer_planet) _ _ (mk3 1 0 0, mk3 0 2 0) (mk3 2 0 0, mk3 0 4 0) [outer_planet]); [reflexivity|cbn; lra..|cbn [mu outer_planet state_vectors]; dof|cbn [equivalent_body]; dof].
      - unfold BarycentricDegreesOfFreedom. cbn [CalculatorGet system_barycentre_ primocentric_dof_ map]. f_equal. dofs.
      - unfold place. cbn [map combine concat app fst snd]. f_equal. dofs. }
    unfold ConsumeBarycentricSystem.
    set (E30 := mkElements (Some 30) None None (at_x 30 3)) in *. set (E8 := mkElements (Some 8) None None (at_x 8 4)) in *. set (P := mkSystem outer_planet _) in *.
    set (RP := mkSub (2 + 2) _ _) in *. set (RI := mkSub 2 [inner_planet] [dzero]).
    assert (L : ToBarycentric insertion_order (mkSystem star [(E30, P); (E8, mkSystem inner_planet [])]) = Some (mkSub (6 + 2 + (2 + 2)) [star; inner_planet; outer_planet; moon] 
        [(mk3 (-12) 0 0, mk3 0 (-2) 0); (mk3 (-4) 0 0, mk3 0 2 0); (mk3 (39 / 2) 0 0, mk3 0 1 0); (mk3 (41 / 2) 0 0, mk3 0 3 0)])).
    { rewrite (to_barycentric insertion_order star _ [1; 0]%nat [(E30, RP); (E8, RI)] [(E8, RI); (E30, RP)]
        (mkJacobi [dzero; (mk3 8 0 0, mk3 0 4 0); (mk3 32 0 0, mk3 0 4 0)] (Some ((mk3 144 0 0, mk3 0 24 0), 6 + 2 + (2 + 2)))) [[dzero]; barycentric_degrees_of_freedom RP] [star; inner_planet; outer_planet; moon]
        [(mk3 (-12) 0 0, mk3 0 (-2) 0); (mk3 (-4) 0 0, mk3 0 2 0); (mk3 20 0 0, mk3 0 2 0)]
        [(mk3 (-12) 0 0, mk3 0 (-2) 0); (mk3 (-4) 0 0, mk3 0 2 0); (mk3 (39 / 2) 0 0, mk3 0 1 0); (mk3 (41 / 2) 0 0, mk3 0 3 0)]); [reflexivity|exact O| |reflexivity| | |].
      - cbn [map snd fst]. rewrite PAIR. now rewrite (LEAF inner_planet eq_refl).
      - rewrite start. cbn [fold_left]. rewrite (step [] [dzero] dzero (mu star) E8 RI (mk3 8 0 0, mk3 0 4 0) (mk3 16 0 0, mk3 0 8 0) [star]);
          [|cbn; lra..|cbn [mu star state_vectors E8]; dof|cbn [equivalent_body RI]; dof]. cbn [app equivalent_body RI barycentric_degrees_of_freedom bodies mu star].
        rewrite (step _ [dzero; (mk3 8 0 0, mk3 0 4 0)] (mk3 16 0 0, mk3 0 8 0) (6 + 2) E30 RP (mk3 32 0 0, mk3 0 4 0) (mk3 144 0 0, mk3 0 24 0)); [reflexivity|lra|cbn; lra|cbn [state_vectors E30]; dof|cbn [equivalent_body RP]; dof].
      - unfold BarycentricDegreesOfFreedom. cbn [CalculatorGet system_barycentre_ primocentric_dof_ map]. f_equal. dofs.
      - unfold place. cbn [map combine concat app RP barycentric_degrees_of_freedom fst snd]. f_equal. dofs. }
    match goal with |- bind (ToBarycentric _ ?s) _ = _ => change s with (mkSystem star [(E30, P); (E8, mkSystem inner_planet [])]) end.
    rewrite L. cbn [bind bodies barycentric_degrees_of_freedom map]. do 2 f_equal. dofs.
Qed.
