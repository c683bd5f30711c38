(** Hierarchical systems: specification and proofs. *)
From Coq Require Import Reals List Bool Arith Lra Lia Permutation.
From Verif Require Import Geometry_Model Hierarchy_Model.
Import ListNotations.
Open Scope R_scope.

Lemma dof_ext (a b : DoF) : cx (fst a) = cx (fst b) -> cy (fst a) = cy (fst b) -> cz (fst a) = cz (fst b) ->
  cx (snd a) = cx (snd b) -> cy (snd a) = cy (snd b) -> cz (snd a) = cz (snd b) -> a = b.
Proof. destruct a as [[] []], b as [[] []]. cbn. intros -> -> -> -> -> ->. reflexivity. Qed.
Ltac du := unfold dadd, dsub, dscal, ddiv, dzero, add3, sub3, scal3, div3, zero3; cbn [fst snd cx cy cz].
Ltac de := apply dof_ext; du; ring.
Ltac df H := apply dof_ext; du; field; exact H.

(** * Specification *)
(** Bodies with their degrees of freedom. *)
Definition Placed := list (Body * DoF).
Definition mass (l : Placed) : R := fold_right (fun x s => mu (fst x) + s) 0 l.
Definition moment (l : Placed) : DoF := fold_right (fun x s => dadd (dscal (mu (fst x)) (snd x)) s) dzero l.
Definition barycentre (l : Placed) : DoF := ddiv (moment l) (mass l).
(** The elements are in the order of the comparison, which does not fail. *)
Definition in_order (keys : list Elements) : Prop :=
  forall i j k l, (i < j)%nat -> nth_error keys i = Some k -> nth_error keys j = Some l -> semimajor_axis_less_than l k = Some false.
(** [laid_out s c placed]: the bodies of [s], in preorder, with the satellites in order, are placed with the barycentre [c];
    the barycentre of each satellite has, with respect to the barycentre of the bodies before it, the state given by its
    elements; and the bodies of the satellite are themselves laid out. *)
Inductive laid_out : System -> DoF -> Placed -> Prop :=
| Laid p satellites ordered x placed :
    Permutation satellites ordered -> in_order (map fst ordered) ->
    satellites_laid [(p, x)] ordered placed ->
    laid_out (mkSystem p satellites) (barycentre placed) placed
with satellites_laid : Placed -> list (Elements * System) -> Placed -> Prop :=
| NoSatellite inner : satellites_laid inner [] inner
| MoreSatellites inner elements s rest c group placed :
    laid_out s c group ->
    dsub c (barycentre inner) = state_vectors elements (mass inner + mass group) ->
    satellites_laid (inner ++ group) rest placed ->
    satellites_laid inner ((elements, s) :: rest) placed.

(** The bodies of a system. *)
Fixpoint all_bodies (s : System) : list Body := let (p, satellites) := s in p :: concat (map (fun x => all_bodies (snd x)) satellites).

(** The contract of std::sort. *)
Definition comparable (keys : list Elements) : Prop :=
  (forall k, In k keys -> semimajor_axis k <> None) \/
  (forall k, In k keys -> semimajor_axis k = None /\ mean_motion k <> None) \/
  (forall k, In k keys -> semimajor_axis k = None /\ mean_motion k = None /\ period k <> None).
Definition sorts (order : list Elements -> option (list nat)) : Prop :=
  forall keys, comparable keys ->
  exists indices, order keys = Some indices /\ Permutation indices (seq 0 (length keys)) /\
    forall ks, map (nth_error keys) indices = map Some ks -> in_order ks.
(** At each level, the satellites are given by elements of the same kind, and the masses are positive. *)
Fixpoint well_formed (s : System) : Prop :=
  let (p, satellites) := s in
  0 < mu p /\ comparable (map fst satellites) /\
  fold_right and True (map (fun x => well_formed (snd x)) satellites).

(** * Induction *)
Section INDUCTION.
  Context (P : System -> Prop) (H : forall p satellites, Forall (fun x => P (snd x)) satellites -> P (mkSystem p satellites)).
  Fixpoint system_ind (s : System) : P s :=
    match s with
    | mkSystem p satellites =>
        H p satellites ((fix go l : Forall (fun x : Elements * System => P (snd x)) l :=
                           match l with [] => Forall_nil _ | x :: l => Forall_cons x (system_ind (snd x)) (go l) end) satellites)
    end.
End INDUCTION.

(** * Masses and moments *)
Lemma mass_app l m : mass (l ++ m) = mass l + mass m.
Proof. unfold mass. induction l as [|a l IH]; cbn [app fold_right]; [ring|]. rewrite IH. ring. Qed.
Lemma moment_cons x l : moment (x :: l) = dadd (dscal (mu (fst x)) (snd x)) (moment l).
Proof. reflexivity. Qed.
Lemma mass_cons x l : mass (x :: l) = mu (fst x) + mass l.
Proof. reflexivity. Qed.
Lemma moment_app l m : moment (l ++ m) = dadd (moment l) (moment m).
Proof.
  induction l as [|a l IH]; cbn [app].
  - change (moment []) with dzero. generalize (moment m). intros. de.
  - rewrite !moment_cons, IH. generalize (moment m) (moment l). intros. de.
Qed.
Definition shift (d : DoF) (l : Placed) : Placed := map (fun x => (fst x, dadd d (snd x))) l.
Lemma shift_app d l m : shift d (l ++ m) = shift d l ++ shift d m.
Proof. apply map_app. Qed.
Lemma mass_shift d l : mass (shift d l) = mass l.
Proof. induction l as [|a l IH]; [reflexivity|]. cbn [shift map]. rewrite !mass_cons. fold (shift d l). now rewrite IH. Qed.
Lemma moment_shift d l : moment (shift d l) = dadd (dscal (mass l) d) (moment l).
Proof.
  induction l as [|a l IH]; [change (mass []) with 0; change (moment []) with dzero; cbn [shift map]; change (moment []) with dzero; de|].
  cbn [shift map]. rewrite !moment_cons, !mass_cons. fold (shift d l). rewrite IH. cbn [fst snd]. generalize (moment l) (mass l). intros. de.
Qed.
Lemma barycentre_shift d l : mass l <> 0 -> barycentre (shift d l) = dadd d (barycentre l).
Proof. intros N. unfold barycentre. rewrite mass_shift, moment_shift. generalize dependent (mass l). generalize (moment l). intros m r N. df N. Qed.
Lemma shift_shift d d' l : shift d (shift d' l) = shift (dadd d d') l.
Proof. unfold shift. rewrite map_map. apply map_ext. intros x. cbn [fst snd]. f_equal. de. Qed.
Lemma shift_fst d l : map fst (shift d l) = map fst l.
Proof. unfold shift. rewrite map_map. now apply map_ext. Qed.

Scheme laid_out_mind := Minimality for laid_out Sort Prop with satellites_laid_mind := Minimality for satellites_laid Sort Prop.
Combined Scheme laid_mind from laid_out_mind, satellites_laid_mind.

Definition positive (l : Placed) : Prop := forall x, In x l -> 0 < mu (fst x).
Lemma mass_nonneg l : positive l -> 0 <= mass l.
Proof. induction l as [|a l IH]; intros H; [apply Rle_refl|]. rewrite mass_cons. pose proof (H a (or_introl eq_refl)). specialize (IH (fun x I => H x (or_intror I))). lra. Qed.
Lemma mass_pos l : positive l -> l <> [] -> 0 < mass l.
Proof. destruct l as [|a l]; intros H N; [congruence|]. rewrite mass_cons. pose proof (H a (or_introl eq_refl)). pose proof (mass_nonneg l (fun x I => H x (or_intror I))). lra. Qed.

(** A system laid out around a point can be translated. *)
Lemma sat_inner_nonempty : (forall s c l, laid_out s c l -> l <> []) /\ (forall inner sats l, satellites_laid inner sats l -> inner <> [] -> l <> []).
Proof.
  apply laid_mind.
  - intros p sats o x l _ _ _ IH. apply IH. discriminate.
  - auto.
  - intros inner el s rest c g l _ _ _ _ IH N. apply IH. intros E. apply app_eq_nil in E. tauto.
Qed.
Lemma inner_in inner sats l : satellites_laid inner sats l -> exists outer, l = inner ++ outer.
Proof.
  revert inner l. induction sats as [|[el s] sats IH]; intros inner l H; inversion H; subst.
  - exists []. now rewrite app_nil_r.
  - edestruct IH as (o & ->); [eassumption|]. eexists. rewrite <- app_assoc. reflexivity.
Qed.
Lemma shift_laid d :
  (forall s c l, laid_out s c l -> positive l -> laid_out s (dadd d c) (shift d l)) /\
  (forall inner sats l, satellites_laid inner sats l -> inner <> [] -> positive l -> satellites_laid (shift d inner) sats (shift d l)).
Proof.
  apply laid_mind.
  - intros p sats o x l PM IO SL IH PO. assert (NE : l <> []) by (eapply (proj2 sat_inner_nonempty); [exact SL|discriminate]).
    rewrite <- barycentre_shift by (apply Rgt_not_eq, mass_pos; assumption).
    eapply Laid; [exact PM|exact IO|]. apply IH; [discriminate|exact PO].
  - intros. constructor.
  - intros inner el s rest c g l LO IH1 EQ SL IH2 NE PO.
    destruct (inner_in _ _ _ SL) as (o & EL).
    assert (PI : positive inner) by (intros x I; apply PO; rewrite EL, <- app_assoc; apply in_or_app; now left).
    assert (PG : positive g) by (intros x I; apply PO; rewrite EL; apply in_or_app; left; apply in_or_app; now right).
    eapply MoreSatellites; [apply IH1; exact PG| |].
    + rewrite barycentre_shift by (apply Rgt_not_eq, mass_pos; assumption). rewrite !mass_shift, <- EQ. generalize (barycentre inner). intros. de.
    + rewrite <- shift_app. apply IH2; [|exact PO]. intros E. apply app_eq_nil in E. tauto.
Qed.

(** * The conversion *)
Lemma all_some_spec {A} (l : list (option A)) m : all_some l = Some m <-> l = map Some m.
Proof.
  revert m. induction l as [|[a|] l IH]; intros m; cbn [all_some].
  - split; [intros H; injection H as <-; reflexivity|]. destruct m; [reflexivity|discriminate].
  - destruct (all_some l) as [m'|] eqn:E.
    + specialize (IH m'). split.
      * intros H. injection H as <-. cbn. f_equal. now apply IH.
      * destruct m as [|b m]; [discriminate|]. cbn. intros H. injection H as -> H. f_equal. f_equal. pose proof (proj1 IH eq_refl) as E'.
        rewrite E' in H. clear -H. revert m H. induction m' as [|x m' I]; destruct m; cbn; intros H; try discriminate; [reflexivity|]. injection H as -> H. f_equal. auto.
    + split; [discriminate|]. destruct m as [|b m]; [discriminate|]. cbn. intros H. injection H as -> H. apply IH in H. discriminate.
  - split; [discriminate|]. destruct m; discriminate.
Qed.

(** The result of the conversion, as placed bodies. *)
Definition result_of (r : BarycentricSubsystem) : Placed := combine (bodies r) (barycentric_degrees_of_freedom r).
Definition right_result (s : System) (r : BarycentricSubsystem) : Prop :=
  length (bodies r) = length (barycentric_degrees_of_freedom r) /\ laid_out s dzero (result_of r) /\ positive (result_of r) /\
  equivalent_body r = mass (result_of r).

Lemma laid_barycentre s c l : laid_out s c l -> c = barycentre l.
Proof. now inversion 1. Qed.
Lemma zero_moment l : 0 < mass l -> barycentre l = dzero -> moment l = dzero.
Proof.
  intros P E. unfold barycentre in E. assert (N : mass l <> 0) by lra. revert E. generalize dependent (mass l). generalize (moment l). intros m k P N E.
  transitivity (dscal k (ddiv m k)); [df N|]. rewrite E. de.
Qed.

(** The bodies placed around the primary, from the primocentric positions of the satellites. *)
Definition primocentric (p : Body) (cs : list DoF) (rs : list BarycentricSubsystem) : Placed :=
  (p, dzero) :: concat (map (fun x => shift (fst x) (result_of (snd x))) (combine cs rs)).
Lemma primocentric_snoc p cs rs c r : length cs = length rs -> primocentric p (cs ++ [c]) (rs ++ [r]) = primocentric p cs rs ++ shift c (result_of r).
Proof.
  intros L. unfold primocentric. cbn [app]. f_equal.
  assert (E : combine (cs ++ [c]) (rs ++ [r]) = combine cs rs ++ [(c, r)]).
  { clear -L. revert rs L. induction cs as [|a cs IH]; intros [|b rs] L; try discriminate; [reflexivity|]. cbn. f_equal. apply IH. now injection L. }
  rewrite E, map_app, concat_app. cbn. now rewrite app_nil_r.
Qed.

Lemma satellites_app inner a b mid l : satellites_laid inner a mid -> satellites_laid mid b l -> satellites_laid inner (a ++ b) l.
Proof. induction 1; intros K; [exact K|]. cbn. eapply MoreSatellites; eauto. Qed.

Definition reached (p : Body) (done : list (Elements * System)) (rs : list BarycentricSubsystem) (j : Jacobi) (dofs : list (list DoF)) (bs : list Body) : Prop :=
  exists cs, primocentric_dof_ j = dzero :: cs /\ length cs = length rs /\ dofs = map barycentric_degrees_of_freedom rs /\
    bs = p :: concat (map bodies rs) /\ Forall2 right_result (map snd done) rs /\
    system_barycentre_ j = Some (moment (primocentric p cs rs), mass (primocentric p cs rs)) /\
    positive (primocentric p cs rs) /\ satellites_laid [(p, dzero)] done (primocentric p cs rs).

Lemma reached_start p : 0 < mu p -> reached p [] [] (JacobiCoordinates p) [] [p].
Proof.
  intros P. exists []. repeat split; try (constructor; fail); cbn.
  - do 2 f_equal; [de|ring].
  - intros x [<-|[]]. exact P.
Qed.
Lemma positive_app l m : positive l -> positive m -> positive (l ++ m).
Proof. intros A B x I. apply in_app_or in I. destruct I; auto. Qed.
Lemma positive_shift d l : positive l -> positive (shift d l).
Proof. intros P x I. unfold shift in I. apply in_map_iff in I. destruct I as (y & <- & I). cbn. auto. Qed.
Lemma reached_step p done rs j dofs bs el s r : reached p done rs j dofs bs -> right_result s r ->
  exists j', satellite_step (Some (j, dofs, bs)) (el, r) = Some (j', dofs ++ [barycentric_degrees_of_freedom r], bs ++ bodies r) /\
    reached p (done ++ [(el, s)]) (rs ++ [r]) j' (dofs ++ [barycentric_degrees_of_freedom r]) (bs ++ bodies r).
Proof.
  intros (cs & EP & LC & ED & EB & F & EC & PO & SL) RR. pose proof RR as (LR & LO & PR & EM). unfold satellite_step. cbn [bind]. unfold JAddElements, JAdd, JSystem. rewrite EC.
  cbn [CalculatorGet CalculatorWeight bind]. set (l := primocentric p cs rs) in *. set (g := result_of r) in *.
  assert (NEL : l <> []) by (unfold l, primocentric; discriminate). pose proof (mass_pos l PO NEL) as ML.
  assert (NEG : g <> []) by (eapply (proj1 sat_inner_nonempty); exact LO). pose proof (mass_pos g PR NEG) as MG.
  pose proof (zero_moment g MG (eq_sym (laid_barycentre _ _ _ LO))) as MZ.
  set (c := dadd (dadd dzero (ddiv (moment l) (mass l))) (state_vectors el (mass l + equivalent_body r))).
  eexists. split; [reflexivity|]. exists (cs ++ [c]). cbn [primocentric_dof_ system_barycentre_]. rewrite EP.
  repeat split.
  - rewrite !app_length. cbn. lia.
  - rewrite ED, map_app. reflexivity.
  - rewrite EB, map_app, concat_app. cbn. now rewrite app_nil_r.
  - rewrite map_app. apply Forall2_app; [exact F|]. constructor; [exact RR|constructor].
  - rewrite primocentric_snoc by exact LC. fold l g. rewrite moment_app, mass_app, moment_shift, mass_shift, MZ, EM. unfold CalculatorAdd. fold g. f_equal. f_equal. generalize (moment l) (mass g). intros. clearbody c. de.
  - rewrite primocentric_snoc by exact LC. apply positive_app; [exact PO|]. now apply positive_shift.
  - rewrite primocentric_snoc by exact LC. fold l g. eapply satellites_app; [exact SL|]. eapply MoreSatellites; [apply shift_laid; [exact LO|exact PR]| |constructor].
    rewrite mass_shift, <- EM. unfold c, barycentre. generalize (state_vectors el (mass l + equivalent_body r)) (ddiv (moment l) (mass l)). intros. de.
Qed.
Lemma reached_all p : forall els ss rs0 (rs : list BarycentricSubsystem) done j dofs bs, length els = length ss -> reached p done rs0 j dofs bs -> Forall2 right_result ss rs ->
  exists j' dofs' bs', fold_left satellite_step (combine els rs) (Some (j, dofs, bs)) = Some (j', dofs', bs') /\ reached p (done ++ combine els ss) (rs0 ++ rs) j' dofs' bs'.
Proof.
  intros els ss. revert els. induction ss as [|s ss IH]; intros els rs0 rs done j dofs bs L RE F; inversion F; subst.
  - destruct els; [|discriminate]. exists j, dofs, bs. cbn. rewrite !app_nil_r. auto.
  - destruct els as [|el els]; [discriminate|]. cbn [combine fold_left].
    destruct (reached_step p done rs0 j dofs bs el s y RE H1) as (j' & E & RE'). rewrite E.
    destruct (IH els (rs0 ++ [y]) l' (done ++ [(el, s)]) j' _ _ ltac:(now injection L) RE' H3) as (j2 & d2 & b2 & E2 & RE2).
    exists j2, d2, b2. split; [exact E2|]. rewrite <- !app_assoc in RE2. exact RE2.
Qed.

Lemma combine_concat {A B C} (f : A -> list B) (g : A -> list C) (l : list A) : (forall a, In a l -> length (f a) = length (g a)) ->
  combine (concat (map f l)) (concat (map g l)) = concat (map (fun a => combine (f a) (g a)) l).
Proof.
  induction l as [|a l IH]; intros H; [reflexivity|]. cbn [map concat]. rewrite <- IH by (intros; apply H; now right).
  specialize (H a (or_introl eq_refl)). revert H. generalize (concat (map f l)) (concat (map g l)) (f a) (g a). intros x y u. induction u as [|b u IHu]; intros [|c v] E; try discriminate; [reflexivity|].
  cbn. f_equal. apply IHu. now injection E.
Qed.
Lemma combine_map_r {A B C} (f : B -> C) (l : list A) m : combine l (map f m) = map (fun x => (fst x, f (snd x))) (combine l m).
Proof. revert m. induction l as [|a l IH]; intros [|b m]; try reflexivity. cbn. f_equal. apply IH. Qed.
Lemma combine_map_l {A B C} (f : A -> C) (l : list A) (m : list B) : combine (map f l) m = map (fun x => (f (fst x), snd x)) (combine l m).
Proof. revert m. induction l as [|a l IH]; intros [|b m]; try reflexivity. cbn. f_equal. apply IH. Qed.

(** The end: the origin is put at the barycentre. *)
Lemma reached_end p ordered sats rs j dofs bs : reached p ordered rs j dofs bs -> Permutation sats ordered -> in_order (map fst ordered) ->
  exists b result, BarycentricDegreesOfFreedom j = Some b /\ place b dofs = Some result /\ right_result (mkSystem p sats) (mkSub (JSystem j) bs result).
Proof.
  intros (cs & EP & LC & ED & EB & F & EC & PO & SL) PM IO. unfold BarycentricDegreesOfFreedom, JSystem. rewrite EC, EP. cbn [CalculatorGet CalculatorWeight map].
  set (l := primocentric p cs rs) in *. set (B := dadd dzero (ddiv (moment l) (mass l))).
  assert (NEL : l <> []) by (unfold l, primocentric; discriminate). pose proof (mass_pos l PO NEL) as ML.
  eexists. eexists. split; [reflexivity|]. cbn [place map]. split; [reflexivity|].
  assert (LR : forall r, In r rs -> length (bodies r) = length (barycentric_degrees_of_freedom r)).
  { intros r I. clear -F I. revert I F. generalize (map snd ordered). intros ss. revert ss. clear. induction rs as [|a rs IH]; intros ss I F; [destruct I|]. inversion F; subst. destruct I as [->|I]; [apply H2|]. eapply IH; eauto. }
  set (result := _ :: _).
  assert (ER : combine bs result = shift (dsub dzero B) l).
  { unfold l, primocentric, result. rewrite EB, ED. cbn [combine shift map]. f_equal; [cbn [fst snd]; f_equal; clearbody B; de|]. fold (shift (dsub dzero B)).
    rewrite !combine_map_l, combine_map_r, !map_map. cbn [fst snd].
    set (pairs := combine cs rs).
    assert (RS : map bodies rs = map (fun x => bodies (snd x)) pairs).
    { unfold pairs. clear -LC. revert rs LC. induction cs as [|c cs IH]; intros [|r rs] L; try discriminate; [reflexivity|]. cbn. f_equal. apply IH. now injection L. }
    rewrite RS. rewrite combine_concat.
    - unfold shift at 1. rewrite concat_map, map_map. f_equal. apply map_ext. intros [c r]. cbn [fst snd]. unfold shift, result_of. rewrite combine_map_r, map_map. apply map_ext. intros [x d]. cbn [fst snd]. f_equal. clearbody B. de.
    - intros [c r] I. cbn [fst snd]. rewrite map_length. apply LR. eapply in_combine_r; exact I. }
  unfold right_result, result_of. cbn [bodies barycentric_degrees_of_freedom equivalent_body]. rewrite ER.
  split.
  - unfold result. rewrite EB, ED. cbn [length]. f_equal. clearbody B. clear -LR LC. revert rs LC LR. induction cs as [|c cs IH]; intros [|r rs] L LR; try discriminate; [reflexivity|].
    cbn [map concat combine]. rewrite !app_length, map_length. cbn [fst snd]. f_equal; [apply LR; now left|]. apply IH; [now injection L|]. intros; apply LR; now right.
  - split; [|split; [now apply positive_shift|now rewrite mass_shift]].
    replace dzero with (dadd (dsub dzero B) (barycentre l)) at 1 by (unfold B, barycentre; generalize (ddiv (moment l) (mass l)); intros; de).
    apply shift_laid; [|exact PO]. eapply Laid; eassumption.
Qed.

Lemma permuted {A} (l : list A) indices : Permutation indices (seq 0 (length l)) -> exists m, map (nth_error l) indices = map Some m /\ Permutation m l.
Proof.
  intros P. assert (E : forall l : list A, map (nth_error l) (seq 0 (length l)) = map Some l).
  { clear. induction l as [|a l IH]; [reflexivity|]. cbn [length seq map nth_error]. f_equal. rewrite <- seq_shift, map_map. exact IH. }
  apply (Permutation_map (nth_error l)) in P. rewrite E in P. apply Permutation_map_inv in P.
  destruct P as (m & EQ & PM). exists m. split; [exact EQ|]. now apply Permutation_sym.
Qed.

Lemma fold_and {A} (f : A -> Prop) l : fold_right and True (map f l) <-> Forall f l.
Proof. induction l as [|a l IH]; cbn; [split; auto|]. rewrite IH. split; [intros [X Y]; now constructor|inversion 1; auto]. Qed.

Theorem conversion order s : sorts order -> well_formed s -> exists r, ToBarycentric order s = Some r /\ right_result s r.
Proof.
  intros SO. revert s. apply (system_ind (fun s => well_formed s -> exists r, ToBarycentric order s = Some r /\ right_result s r)). intros p sats IH (P & C & WF). apply fold_and in WF.
  cbn [ToBarycentric]. destruct (SO _ C) as (indices & EO & PI & IO). rewrite EO. cbn [bind]. rewrite map_length in PI.
  assert (CV : exists rs, map (fun x => match ToBarycentric order (snd x) with Some r => Some (fst x, r) | None => None end) sats = map Some (combine (map fst sats) rs) /\
     Forall2 right_result (map snd sats) rs).
  { clear -IH WF. induction sats as [|[el s] sats IHs]; [exists []; split; [reflexivity|constructor]|]. inversion IH; subst. inversion WF; subst.
    destruct (IHs H2 H4) as (rs & E & F). cbn [snd] in *. destruct (H1 H3) as (r & ER & RR). exists (r :: rs). cbn [map combine fst snd]. rewrite ER, E. split; [reflexivity|now constructor]. }
  destruct CV as (rs & EC & F). rewrite (proj2 (all_some_spec _ _) EC). cbn [bind].
  assert (LF : length (map snd sats) = length rs) by (clear -F; induction F; cbn; congruence). rewrite map_length in LF.
  (* the triples (elements, system, result) *)
  set (tr := combine sats rs). assert (LT : length tr = length sats) by (unfold tr; rewrite combine_length; lia).
  assert (T1 : map fst tr = sats). { unfold tr. clear -LF. revert rs LF. induction sats as [|a l I]; intros [|r rs] L; try discriminate; [reflexivity|]. cbn. f_equal. apply I. now injection L. }
  assert (T2 : combine (map fst sats) rs = map (fun x => (fst (fst x), snd x)) tr) by (unfold tr; apply combine_map_l).
  destruct (permuted tr indices) as (tm & ET & PT); [now rewrite LT|].
  assert (ES : map (nth_error (combine (map fst sats) rs)) indices = map Some (map (fun x => (fst (fst x), snd x)) tm)).
  { rewrite T2. transitivity (map (option_map (fun x : Elements * System * BarycentricSubsystem => (fst (fst x), snd x))) (map (nth_error tr) indices)).
    - rewrite map_map. apply map_ext. intros i. clear. revert i. induction tr as [|a l I]; intros [|i]; try reflexivity. cbn. apply I.
    - rewrite ET, !map_map. reflexivity. }
  rewrite (proj2 (all_some_spec _ _) ES). cbn [bind].
  assert (F' : Forall2 right_result (map (fun x => snd (fst x)) tm) (map snd tm)).
  { assert (FT : Forall (fun x => right_result (snd (fst x)) (snd x)) tr).
    { unfold tr. clear -F LF. revert rs F LF. induction sats as [|a l I]; intros [|r rs] F L; try discriminate; [constructor|]. inversion F; subst. cbn. constructor; [assumption|]. apply I; [assumption|now injection L]. }
    assert (FM : Forall (fun x => right_result (snd (fst x)) (snd x)) tm) by (rewrite Forall_forall in *; intros x I; apply FT; eapply Permutation_in; [exact PT|exact I]).
    clear -FM. induction FM; cbn; constructor; assumption. }
  assert (ORD : in_order (map fst (map fst tm))).
  { apply IO. assert (T3 : map fst sats = map (fun x => fst (fst x)) tr) by (transitivity (map fst (map fst tr)); [now rewrite T1|now rewrite map_map]). rewrite T3.
    transitivity (map (option_map (fun x : Elements * System * BarycentricSubsystem => fst (fst x))) (map (nth_error tr) indices)).
    - rewrite map_map. apply map_ext. intros i. clear. revert i. induction tr as [|a l I]; intros [|i]; try reflexivity. cbn. apply I.
    - rewrite ET, !map_map. reflexivity. }
  destruct (reached_all p (map (fun x => fst (fst x)) tm) (map (fun x => snd (fst x)) tm) [] (map snd tm) [] _ _ _ ltac:(now rewrite !map_length) (reached_start p P) F') as (j & dofs & bs & EF & RE).
  cbn [app] in RE.
  assert (CB : forall {X Y Z} (f : X -> Y) (g : X -> Z) l, combine (map f l) (map g l) = map (fun x => (f x, g x)) l).
  { clear. intros X Y Z f g l. induction l; [reflexivity|]. cbn. now f_equal. }
  rewrite CB in EF, RE. rewrite EF. cbn [bind].
  assert (ID : map (fun x : Elements * System * BarycentricSubsystem => (fst (fst x), snd (fst x))) tm = map fst tm) by (apply map_ext; now intros [[a b] c]).
  rewrite ID in RE.
  assert (PS : Permutation sats (map fst tm)) by (apply Permutation_sym; eapply Permutation_trans; [apply Permutation_map; exact PT|rewrite T1; apply Permutation_refl]).
  destruct (reached_end p (map fst tm) sats (map snd tm) j dofs bs RE PS ORD) as (b & result & EB & EP & RR).
  rewrite EB. cbn [bind]. rewrite EP. cbn [bind]. eexists. split; [reflexivity|exact RR].
Qed.
