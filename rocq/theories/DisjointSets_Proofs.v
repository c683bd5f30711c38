From Coq Require Import List Arith Bool Lia Permutation Relations.
From Verif Require Import DisjointSets_Model.
Import ListNotations.

Section Spec.
Context {P : Type} (merge : P -> P -> P).

(** The pairs united by a history. *)
Fixpoint united (ops : list op) : list (nat * nat) :=
  match ops with
  | [] => []
  | OFind _ :: ops' => united ops'
  | OUnite x y :: ops' => (x, y) :: united ops'
  end.

(** The equivalence relation generated by a list of pairs. *)
Definition related (l : list (nat * nat)) : nat -> nat -> Prop :=
  clos_refl_sym_trans nat (fun a b => In (a, b) l).

(** [built l p]: [p] results from merging the properties in [l], each used exactly once. *)
Inductive built : list P -> P -> Prop :=
| built_single p : built [p] p
| built_merge l1 l2 p1 p2 : built l1 p1 -> built l2 p2 -> built (l1 ++ l2) (merge p1 p2).

Definition op_in (es : list nat) (o : op) : Prop :=
  match o with OFind x => In x es | OUnite x y => In x es /\ In y es end.

Lemma set_same {A} (f : nat -> A) x v : set f x v x = v.
Proof. unfold set. rewrite Nat.eqb_refl. reflexivity. Qed.
Lemma set_other {A} (f : nat -> A) x v y : y <> x -> set f x v y = f y.
Proof. intros H. unfold set. destruct (Nat.eqb_spec y x); congruence. Qed.

Section Inv.
Variable es : list nat.

(** [c] maps each element to the root of its tree. *)
Record Inv (h : heap P) (c : nat -> nat) (M : nat) : Prop := {
  inv_parent : forall x, In x es -> In (parent h x) es;
  inv_c_in : forall x, In x es -> In (c x) es;
  inv_c_parent : forall x, In x es -> c (parent h x) = c x;
  inv_root : forall x, In x es -> parent h (c x) = c x;
  inv_self : forall x, In x es -> parent h x = x -> c x = x;
  inv_c_idem : forall x, In x es -> c (c x) = c x;
  inv_rank : forall x, In x es -> parent h x <> x -> rank h x < rank h (parent h x);
  inv_rank_c : forall x, In x es -> x <> c x -> rank h x < rank h (c x);
  inv_bound : forall x, In x es -> rank h x <= M }.

Lemma root_correct : forall fuel x h c M, Inv h c M -> In x es -> M - rank h x < fuel ->
  exists h', Root fuel x h = Some (h', c x) /\ Inv h' c M /\ rank h' = rank h /\ properties h' = properties h.
Proof.
  induction fuel as [|fuel IH]; intros x h c M HI Hx Hf; [lia|].
  cbn [Root]. destruct (Nat.eqb_spec (parent h x) x) as [E|E].
  - exists h. rewrite E. rewrite (inv_self _ _ _ HI x Hx E). auto.
  - pose proof (inv_rank _ _ _ HI x Hx E) as Hr.
    pose proof (inv_parent _ _ _ HI x Hx) as Hp.
    pose proof (inv_bound _ _ _ HI _ Hp) as Hb.
    destruct (IH (parent h x) h c M HI Hp ltac:(lia)) as (h1 & -> & HI1 & Hrk & Hpr).
    rewrite (inv_c_parent _ _ _ HI x Hx).
    eexists; split; [reflexivity|]. split; [|split; cbn; assumption].
    assert (Hcx : x <> c x).
    { intros Ec. apply E. rewrite Ec at 1. rewrite (inv_root _ _ _ HI x Hx). congruence. }
    constructor; cbn [parent rank properties].
    + intros y Hy. destruct (Nat.eq_dec y x) as [->|Hn].
      * rewrite set_same. apply (inv_c_in _ _ _ HI1); assumption.
      * rewrite set_other by assumption. apply (inv_parent _ _ _ HI1); assumption.
    + apply (inv_c_in _ _ _ HI1).
    + intros y Hy. destruct (Nat.eq_dec y x) as [->|Hn].
      * rewrite set_same. apply (inv_c_idem _ _ _ HI1); assumption.
      * rewrite set_other by assumption. apply (inv_c_parent _ _ _ HI1); assumption.
    + intros y Hy. rewrite set_other.
      * apply (inv_root _ _ _ HI1); assumption.
      * intros Ec. apply Hcx. rewrite <- Ec. rewrite (inv_c_idem _ _ _ HI1 y Hy). reflexivity.
    + intros y Hy. destruct (Nat.eq_dec y x) as [->|Hn].
      * rewrite set_same. congruence.
      * rewrite set_other by assumption. apply (inv_self _ _ _ HI1); assumption.
    + apply (inv_c_idem _ _ _ HI1).
    + intros y Hy. destruct (Nat.eq_dec y x) as [->|Hn].
      * rewrite set_same. intros _. apply (inv_rank_c _ _ _ HI1); assumption.
      * rewrite set_other by assumption. apply (inv_rank _ _ _ HI1); assumption.
    + apply (inv_rank_c _ _ _ HI1).
    + apply (inv_bound _ _ _ HI1).
Qed.

Definition redirect (c : nat -> nat) (loser winner : nat) : nat -> nat :=
  fun z => if Nat.eqb (c z) loser then winner else c z.

Lemma redirect_spec c l w z : (c z = l /\ redirect c l w z = w) \/ (c z <> l /\ redirect c l w z = c z).
Proof. unfold redirect. destruct (Nat.eqb_spec (c z) l); auto. Qed.

(** Linking root [l] under root [w], where the rank of [w] is (or becomes) larger. *)
Lemma link_inv h c M l w rk' pr' :
  Inv h c M -> In l es -> In w es -> l <> w -> c l = l -> c w = w ->
  (rk' = rank h /\ rank h l < rank h w \/
   rk' = set (rank h) w (S (rank h w)) /\ rank h l <= rank h w) ->
  Inv (Heap (set (parent h) l w) rk' pr') (redirect c l w) (S M).
Proof.
  intros HI Hl Hw Hlw Hcl Hcw Hrk.
  assert (Hpl : parent h l = l) by (rewrite <- Hcl at 1; rewrite (inv_root _ _ _ HI l Hl); exact Hcl).
  assert (Hpw : parent h w = w) by (rewrite <- Hcw at 1; rewrite (inv_root _ _ _ HI w Hw); exact Hcw).
  assert (Hrlw : rk' l < rk' w).
  { destruct Hrk as [[-> H]|[-> H]]; [exact H|]. rewrite set_same, set_other by congruence. lia. }
  assert (Hmono : forall z, rank h z <= rk' z <= S (rank h z)).
  { intros z. destruct Hrk as [[-> H]|[-> H]]; [lia|]. destruct (Nat.eq_dec z w) as [->|Hn].
    - rewrite set_same. lia.
    - rewrite set_other by assumption. lia. }
  assert (Hneq : forall z, z <> w -> rk' z = rank h z).
  { intros z Hn. destruct Hrk as [[-> H]|[-> H]]; [reflexivity|]. apply set_other; assumption. }
  constructor; cbn [parent rank properties].
  - intros x Hx. destruct (Nat.eq_dec x l) as [->|Hn].
    + rewrite set_same. assumption.
    + rewrite set_other by assumption. apply (inv_parent _ _ _ HI); assumption.
  - intros x Hx. destruct (redirect_spec c l w x) as [[_ ->]|[_ ->]]; [assumption|].
    apply (inv_c_in _ _ _ HI); assumption.
  - intros x Hx. destruct (Nat.eq_dec x l) as [->|Hn].
    + rewrite set_same. unfold redirect. rewrite Hcl, Nat.eqb_refl, Hcw.
      destruct (Nat.eqb_spec w l); congruence.
    + rewrite set_other by assumption. unfold redirect. rewrite (inv_c_parent _ _ _ HI x Hx). reflexivity.
  - intros x Hx. destruct (redirect_spec c l w x) as [[Hc ->]|[Hc ->]].
    + rewrite set_other by congruence. exact Hpw.
    + rewrite set_other by assumption. apply (inv_root _ _ _ HI); assumption.
  - intros x Hx. destruct (Nat.eq_dec x l) as [->|Hn].
    + rewrite set_same. congruence.
    + rewrite set_other by assumption. intros E. pose proof (inv_self _ _ _ HI x Hx E) as Ec.
      destruct (redirect_spec c l w x) as [[Hc _]|[_ ->]]; congruence.
  - intros x Hx. destruct (redirect_spec c l w x) as [[Hc ->]|[Hc ->]].
    + unfold redirect. rewrite Hcw. destruct (Nat.eqb_spec w l); congruence.
    + unfold redirect. rewrite (inv_c_idem _ _ _ HI x Hx). destruct (Nat.eqb_spec (c x) l); congruence.
  - intros x Hx. destruct (Nat.eq_dec x l) as [->|Hn].
    + rewrite set_same. intros _. exact Hrlw.
    + rewrite set_other by assumption. intros E.
      pose proof (inv_rank _ _ _ HI x Hx E) as Hr.
      assert (x <> w) by congruence. rewrite (Hneq x) by assumption.
      specialize (Hmono (parent h x)). lia.
  - intros x Hx Hne. destruct (redirect_spec c l w x) as [[Hc E]|[Hc E]]; rewrite E in *.
    + rewrite (Hneq x) by assumption.
      destruct (Nat.eq_dec x l) as [->|Hn].
      * rewrite <- (Hneq l) by assumption. exact Hrlw.
      * assert (x <> c x) by congruence. pose proof (inv_rank_c _ _ _ HI x Hx H) as Hr.
        rewrite Hc in Hr. rewrite (Hneq l) in Hrlw by assumption. lia.
    + assert (Hxw : x <> w) by congruence. rewrite (Hneq x) by assumption.
      pose proof (inv_rank_c _ _ _ HI x Hx Hne) as Hr. specialize (Hmono (c x)). lia.
  - intros x Hx. pose proof (inv_bound _ _ _ HI x Hx). specialize (Hmono x). lia.
Qed.

(** Abstract meaning of the properties: the root of each class holds a merge of the singletons' properties. *)
Variable p0 : nat -> P.

Definition class (c : nat -> nat) (r : nat) : list nat := filter (fun z => Nat.eqb (c z) r) es.

Definition PropsOk (h : heap P) (c : nat -> nat) : Prop :=
  forall x, In x es -> c x = x ->
  exists l p, properties h x = Some p /\ Permutation l (class c x) /\ built (map p0 l) p.

Lemma class_merge c l w : l <> w ->
  Permutation (class (redirect c l w) w) (class c w ++ class c l).
Proof.
  intros Hlw. unfold class. induction es as [|e t IH]; [constructor|].
  cbn [filter].
  destruct (redirect_spec c l w e) as [[Hc ->]|[Hc ->]].
  - rewrite Nat.eqb_refl. destruct (Nat.eqb_spec (c e) w); [congruence|].
    destruct (Nat.eqb_spec (c e) l); [|congruence].
    rewrite <- Permutation_middle. constructor. exact IH.
  - destruct (Nat.eqb_spec (c e) l); [congruence|]. destruct (Nat.eqb_spec (c e) w).
    + cbn. constructor. exact IH.
    + exact IH.
Qed.

Lemma class_other c l w r : r <> l -> r <> w -> class (redirect c l w) r = class c r.
Proof.
  intros Hl Hw. unfold class. apply filter_ext. intros z.
  destruct (redirect_spec c l w z) as [[Hc ->]|[Hc ->]]; [|reflexivity].
  rewrite Hc. destruct (Nat.eqb_spec w r), (Nat.eqb_spec l r); congruence.
Qed.

Lemma link_correct h c M l w rk' :
  Inv h c M -> PropsOk h c -> In l es -> In w es -> l <> w -> c l = l -> c w = w ->
  (rk' = rank h /\ rank h l < rank h w \/
   rk' = set (rank h) w (S (rank h w)) /\ rank h l <= rank h w) ->
  exists h', merge_into merge (Heap (set (parent h) l w) rk' (properties h)) w l = Some h' /\
    Inv h' (redirect c l w) (S M) /\ PropsOk h' (redirect c l w).
Proof.
  intros HI HP Hl Hw Hlw Hcl Hcw Hrk.
  destruct (HP l Hl Hcl) as (ll & pl & Epl & Pl & Bl).
  destruct (HP w Hw Hcw) as (lw & pw & Epw & Pw & Bw).
  unfold merge_into. cbn [properties]. rewrite Epw, Epl.
  eexists; split; [reflexivity|]. split.
  - cbn [parent rank]. apply link_inv with (M := M) (h := h); assumption.
  - intros x Hx. cbn [properties]. destruct (Nat.eq_dec x w) as [->|Hxw].
    + intros _. rewrite set_same. exists (lw ++ ll), (merge pw pl). split; [reflexivity|]. split.
      * rewrite class_merge by assumption. apply Permutation_app; assumption.
      * rewrite map_app. constructor; assumption.
    + intros Hr. destruct (redirect_spec c l w x) as [[Hc E]|[Hc E]]; [congruence|].
      rewrite E in Hr.
      rewrite set_other by assumption. rewrite class_other by congruence. apply HP; assumption.
Qed.
End Inv.

Lemma related_mono l l' x y : (forall p, In p l -> In p l') -> related l x y -> related l' x y.
Proof.
  intros H. unfold related. induction 1.
  - apply rst_step. apply H. assumption.
  - apply rst_refl.
  - apply rst_sym. assumption.
  - eapply rst_trans; eassumption.
Qed.

(** Adding one pair to a generated equivalence. *)
Lemma related_add (es : list nat) l c x y :
  (forall a b, In (a, b) l -> In a es /\ In b es) -> In x es -> In y es ->
  (forall a b, In a es -> In b es -> (c a = c b <-> related l a b)) ->
  forall lo w, (lo = c x /\ w = c y \/ lo = c y /\ w = c x) ->
  forall a b, In a es -> In b es ->
  (redirect c lo w a = redirect c lo w b <-> related (l ++ [(x, y)]) a b).
Proof.
  intros Hl Hx Hy Hc lo w Hlw a b Ha Hb.
  assert (Hinc : forall u v, related l u v -> related (l ++ [(x, y)]) u v).
  { intros u v. apply related_mono. intros p Hp. apply in_or_app. left. exact Hp. }
  assert (Hxy : related (l ++ [(x, y)]) x y).
  { apply rst_step. apply in_or_app. right. left. reflexivity. }
  split.
  - intros E.
    assert (Hcase : c a = c b \/ (c a = lo /\ c b = w) \/ (c a = w /\ c b = lo)).
    { destruct (redirect_spec c lo w a) as [[? E1]|[? E1]], (redirect_spec c lo w b) as [[? E2]|[? E2]];
        rewrite E1, E2 in E; intuition congruence. }
    destruct Hcase as [E1|[[E1 E2]|[E1 E2]]].
    + apply Hinc, Hc; assumption.
    + destruct Hlw as [[-> ->]|[-> ->]].
      * apply rst_trans with x; [apply Hinc, Hc; assumption|].
        apply rst_trans with y; [exact Hxy|]. apply Hinc, Hc; auto.
      * apply rst_trans with y; [apply Hinc, Hc; assumption|].
        apply rst_trans with x; [apply rst_sym; exact Hxy|]. apply Hinc, Hc; auto.
    + destruct Hlw as [[-> ->]|[-> ->]].
      * apply rst_trans with y; [apply Hinc, Hc; assumption|].
        apply rst_trans with x; [apply rst_sym; exact Hxy|]. apply Hinc, Hc; auto.
      * apply rst_trans with x; [apply Hinc, Hc; assumption|].
        apply rst_trans with y; [exact Hxy|]. apply Hinc, Hc; auto.
  - assert (Hredxy : redirect c lo w x = redirect c lo w y).
    { unfold redirect. destruct Hlw as [[-> ->]|[-> ->]]; rewrite Nat.eqb_refl;
        [destruct (Nat.eqb_spec (c y) (c x)) | destruct (Nat.eqb_spec (c x) (c y))]; congruence. }
    clear Ha Hb. induction 1 as [u v Huv| |u v _ IH|u v t _ IH1 _ IH2].
    + apply in_app_or in Huv as [Huv|[Huv|[]]].
      * destruct (Hl u v Huv) as [Hu Hv].
        assert (E : c u = c v) by (apply Hc; try assumption; apply rst_step; assumption).
        unfold redirect. rewrite E. reflexivity.
      * injection Huv as -> ->. exact Hredxy.
    + reflexivity.
    + congruence.
    + congruence.
Qed.

Lemma step_correct es p0 h c M o fuel :
  Inv es h c M -> PropsOk es p0 h c -> op_in es o -> M < fuel ->
  exists h' r c', step merge fuel o h = Some (h', r) /\ Inv es h' c' (S M) /\ PropsOk es p0 h' c' /\
    match o with
    | OFind x => c' = c /\ r = c x
    | OUnite x y => r = c' x /\ r = c' y /\
        (c' = redirect c (c x) (c y) \/ c' = redirect c (c y) (c x))
    end.
Proof.
  intros HI HP Ho Hf. 
  assert (Hweak : forall h c, Inv es h c M -> Inv es h c (S M)).
  { intros h1 c1 H1. destruct H1. constructor; try assumption. intros; specialize (inv_bound0 x H); lia. }
  destruct o as [x|x y]; cbn [op_in step] in *.
  - destruct (root_correct es fuel x h c M HI Ho ltac:(lia)) as (h' & E & HI' & Hr & Hp).
    exists h', (c x), c. split; [exact E|]. split; [apply Hweak; exact HI'|].
    split; [|auto]. intros z Hz Hcz. rewrite Hp. apply HP; assumption.
  - destruct Ho as [Hx Hy].
    destruct (root_correct es fuel x h c M HI Hx ltac:(lia)) as (h1 & -> & HI1 & Hr1 & Hp1).
    destruct (root_correct es fuel y h1 c M HI1 Hy ltac:(lia)) as (h2 & -> & HI2 & Hr2 & Hp2).
    assert (HP2 : PropsOk es p0 h2 c) by (intros z Hz Hcz; rewrite Hp2, Hp1; apply HP; assumption).
    clear HI HP HI1 Hr1 Hp1 Hr2 Hp2 h h1.
    pose proof (inv_c_in _ _ _ _ HI2 x Hx) as Hcx. pose proof (inv_c_in _ _ _ _ HI2 y Hy) as Hcy.
    pose proof (inv_c_idem _ _ _ _ HI2 x Hx) as Hccx. pose proof (inv_c_idem _ _ _ _ HI2 y Hy) as Hccy.
    unfold Unite. destruct (Nat.eqb_spec (c x) (c y)) as [E|E].
    + exists h2, (c x), (redirect c (c x) (c y)). split; [reflexivity|].
      assert (Ext : forall z, redirect c (c x) (c y) z = c z)
        by (intros z; unfold redirect; destruct (Nat.eqb_spec (c z) (c x)); congruence).
      split; [|split].
      * apply Hweak. destruct HI2. constructor; intros; rewrite ?Ext; auto.
        rewrite Ext in *. auto.
      * intros z Hz. rewrite Ext. intros Hcz. destruct (HP2 z Hz Hcz) as (l & p & E1 & E2 & E3).
        exists l, p. split; [assumption|]. split; [|assumption].
        replace (class es (redirect c (c x) (c y)) z) with (class es c z); [assumption|].
        unfold class. apply filter_ext. intros. rewrite Ext. reflexivity.
      * rewrite !Ext. auto.
    + assert (Hred1 : forall z, c z = c x \/ c z = c y -> redirect c (c x) (c y) z = c y).
      { intros z Hz. unfold redirect. destruct (Nat.eqb_spec (c z) (c x)); intuition congruence. }
      assert (Hred2 : forall z, c z = c x \/ c z = c y -> redirect c (c y) (c x) z = c x).
      { intros z Hz. unfold redirect. destruct (Nat.eqb_spec (c z) (c y)); intuition congruence. }
      destruct (Nat.ltb_spec (rank h2 (c x)) (rank h2 (c y))) as [Hlt|Hge];
        [|destruct (Nat.ltb_spec (rank h2 (c y)) (rank h2 (c x))) as [Hlt'|Hge']].
      * destruct (link_correct es p0 h2 c M (c x) (c y) (rank h2)) as (h3 & -> & HI3 & HP3); auto.
        exists h3, (c y), (redirect c (c x) (c y)). rewrite !Hred1 by auto. auto 10.
      * destruct (link_correct es p0 h2 c M (c y) (c x) (rank h2)) as (h3 & -> & HI3 & HP3); auto.
        exists h3, (c x), (redirect c (c y) (c x)). rewrite !Hred2 by auto. auto 10.
      * destruct (link_correct es p0 h2 c M (c y) (c x) (set (rank h2) (c x) (S (rank h2 (c x)))))
          as (h3 & -> & HI3 & HP3); auto.
        exists h3, (c x), (redirect c (c y) (c x)). rewrite !Hred2 by auto. auto 10.
Qed.

Lemma related_ext l l' a b : (forall p, In p l <-> In p l') -> related l a b <-> related l' a b.
Proof. intros H; split; apply related_mono; intros; apply H; assumption. Qed.

Lemma united_in es ops : Forall (op_in es) ops -> forall a b, In (a, b) (united ops) -> In a es /\ In b es.
Proof.
  induction 1 as [|o ops Ho Hops IH]; intros a b Hab; [destruct Hab|].
  destruct o; cbn in Hab; [apply IH; assumption|].
  destruct Hab as [E|Hab]; [|apply IH; assumption]. injection E as <- <-. exact Ho.
Qed.

Lemma run_correct es p0 ops : forall prev h c M fuel,
  Inv es h c M -> PropsOk es p0 h c -> Forall (op_in es) ops -> M + length ops < fuel ->
  (forall a b, In (a, b) prev -> In a es /\ In b es) ->
  (forall a b, In a es -> In b es -> (c a = c b <-> related prev a b)) ->
  exists h' c' M', run merge fuel ops h = Some h' /\ M' < fuel /\ Inv es h' c' M' /\ PropsOk es p0 h' c' /\
    (forall a b, In a es -> In b es -> (c' a = c' b <-> related (prev ++ united ops) a b)).
Proof.
  induction ops as [|o ops IH]; intros prev h c M fuel HI HP Hops Hf Hprev Hc.
  - exists h, c, M. cbn. rewrite app_nil_r. cbn in Hf. repeat (split; [auto; lia|]). exact Hc.
  - inversion Hops as [|? ? Ho Hops']; subst. cbn [length] in Hf.
    destruct (step_correct es p0 h c M o fuel HI HP Ho ltac:(lia)) as (h1 & r & c1 & E & HI1 & HP1 & Hspec).
    cbn [run]. rewrite E. destruct o as [x|x y].
    + destruct Hspec as [-> _]. cbn [united]. apply IH with (c := c) (M := S M); auto. lia.
    + cbn [op_in] in Ho. destruct Ho as [Hx Hy]. destruct Hspec as (_ & _ & Hc1).
      destruct (IH (prev ++ [(x, y)]) h1 c1 (S M) fuel HI1 HP1 Hops' ltac:(lia)) as (h' & c' & M' & Er & HM & HI' & HP' & Hc').
      * intros a b Hab. apply in_app_or in Hab as [Hab|[Hab|[]]]; [apply Hprev; assumption|].
        injection Hab as <- <-. auto.
      * destruct Hc1 as [-> | ->]; apply related_add; auto.
      * exists h', c', M'. repeat (split; [assumption|]). intros a b Ha Hb. rewrite Hc' by assumption.
        apply related_ext. intros p. rewrite !in_app_iff. cbn. tauto.
Qed.

Lemma singletons_spec (l : list (nat * P)) : forall h,
  NoDup (map fst l) ->
  (forall e p, In (e, p) l -> parent (singletons l h) e = e /\ rank (singletons l h) e = 0 /\
                              properties (singletons l h) e = Some p) /\
  (forall e, ~ In e (map fst l) -> parent (singletons l h) e = parent h e /\ rank (singletons l h) e = rank h e /\
                              properties (singletons l h) e = properties h e).
Proof.
  induction l as [|[e0 q0] l IH]; intros h Hnd.
  - split; [intros e p []|auto].
  - cbn [map fst] in Hnd. inversion Hnd as [|? ? Hni Hnd']; subst. cbn [singletons].
    destruct (IH (MakeSingleton e0 q0 h) Hnd') as [H1 H2].
    split.
    + intros e p [E|Hin].
      * injection E as -> ->. destruct (H2 e Hni) as (E1 & E2 & E3). rewrite E1, E2, E3.
        cbn. rewrite !set_same. auto.
      * apply H1. assumption.
    + intros e He. cbn in He. destruct (H2 e ltac:(tauto)) as (E1 & E2 & E3). rewrite E1, E2, E3.
      cbn. rewrite !set_other by (intros ->; tauto). auto.
Qed.

Lemma filter_none x (l : list nat) : ~ In x l -> [] = filter (fun z => Nat.eqb z x) l.
Proof.
  induction l as [|e l IH]; intros H; [reflexivity|]. cbn [filter].
  destruct (Nat.eqb_spec e x) as [->|]; [exfalso; apply H; left; reflexivity|].
  apply IH. intros Hi. apply H. right. exact Hi.
Qed.

(** The whole history. *)
Lemma disjoint_sets_correct (l : list (nat * P)) (h0 : heap P) (ops : list op) (fuel : nat) :
  NoDup (map fst l) -> Forall (op_in (map fst l)) ops -> length ops < fuel ->
  exists h', run merge fuel ops (singletons l h0) = Some h' /\
  exists c,
    (forall x, In x (map fst l) -> exists h'', Root fuel x h' = Some (h'', c x)) /\
    (forall x y, In x (map fst l) -> In y (map fst l) -> (c x = c y <-> related (united ops) x y)) /\
    (forall x, In x (map fst l) ->
       exists members p, properties h' (c x) = Some p /\
         NoDup (map fst members) /\ (forall e q, In (e, q) members -> In (e, q) l) /\
         (forall y, In y (map fst members) <-> In y (map fst l) /\ related (united ops) x y) /\
         built (map snd members) p).
Proof.
  intros Hnd Hops Hf.
  destruct (singletons_spec l h0 Hnd) as [Hs _].
  set (es := map fst l) in *. set (h := singletons l h0) in *.
  assert (Hin : forall x, In x es -> exists p, In (x, p) l).
  { intros x Hx. apply in_map_iff in Hx as ([e p] & <- & Hx). exists p. exact Hx. }
  (* p0: lookup *)
  assert (exists p0 : nat -> option P, forall e p, In (e, p) l -> p0 e = Some p) as [p0 Hp0].
  { clear -Hnd. subst es. induction l as [|[e q] l IH]; [exists (fun _ => None); intros ? ? []|].
    cbn in Hnd. inversion Hnd as [|? ? Hni Hnd']; subst. destruct (IH Hnd') as [p0 H0].
    exists (set p0 e (Some q)). intros e' p' [E|H'].
    - injection E as -> ->. apply set_same.
    - rewrite set_other; [auto|]. intros ->. apply Hni. apply in_map_iff. exists (e, p'). auto. }
  destruct l as [|[e0 q0] l'] eqn:El.
  - (* no elements *)
    destruct ops as [|o ops].
    + exists h. split; [reflexivity|]. exists (fun x => x).
      split; [intros x []|]; split; [intros x y []|intros x []].
    + inversion Hops as [|? ? Ho _]; subst. destruct o as [x|x y]; [destruct Ho | destruct Ho as [[] _]].
  - rewrite <- El in *. clear El.
    set (pf := fun e => match p0 e with Some p => p | None => q0 end).
    assert (HI : Inv es h (fun x => x) 0).
    { constructor; try reflexivity; try (intros; assumption); try congruence;
        intros x Hx; destruct (Hin x Hx) as [p Hp]; destruct (Hs x p Hp) as (E1 & E2 & E3); rewrite ?E1, ?E2; auto.
      congruence. }
    assert (HP : PropsOk es pf h (fun x => x)).
    { intros x Hx _. destruct (Hin x Hx) as [p Hp]. destruct (Hs x p Hp) as (E1 & E2 & E3).
      exists [x], p. split; [exact E3|]. split.
      - unfold class. replace (filter (fun z => Nat.eqb z x) es) with [x]; [constructor; constructor|].
        clear -Hx Hnd. induction es as [|e es IH]; [destruct Hx|]. inversion Hnd as [|? ? Hni Hnd']; subst.
        cbn [filter]. destruct (Nat.eqb_spec e x) as [->|Hn].
        + f_equal. apply filter_none. exact Hni.
        + apply IH; [assumption | destruct Hx; congruence].
      - cbn. unfold pf. rewrite (Hp0 x p Hp). constructor. }
    assert (H0 : forall a b, In a es -> In b es -> (a = b <-> related [] a b)).
    { intros a b _ _. split; [intros ->; apply rst_refl|].
      induction 1; try congruence. destruct H. }
    destruct (run_correct es pf ops [] h (fun x => x) 0 fuel HI HP Hops ltac:(lia)
                ltac:(intros ? ? []) H0) as (h' & c & M & Er & HM & HI' & HP' & Hc).
    cbn [app] in Hc.
    exists h'. split; [exact Er|]. exists c. split; [|split].
    + intros x Hx. destruct (root_correct es fuel x h' c M HI' Hx ltac:(lia)) as (h'' & E & _).
      exists h''. exact E.
    + exact Hc.
    + intros x Hx. pose proof (inv_c_in _ _ _ _ HI' x Hx) as Hcx.
      destruct (HP' (c x) Hcx (inv_c_idem _ _ _ _ HI' x Hx)) as (m & p & Ep & Pm & Bm).
      exists (map (fun e => (e, pf e)) m), p. split; [exact Ep|].
      rewrite !map_map. cbn [fst snd]. rewrite map_id.
      assert (Hm : forall y, In y m <-> In y es /\ c y = c x).
      { intros y. rewrite (Permutation_in' eq_refl Pm). unfold class. rewrite filter_In, Nat.eqb_eq. tauto. }
      split; [|split; [|split]].
      * apply (Permutation_NoDup (Permutation_sym Pm)). apply NoDup_filter. exact Hnd.
      * intros e q He. apply in_map_iff in He as (e' & E & He). injection E as -> <-.
        apply Hm in He as [He _]. destruct (Hin e He) as [q Hq]. unfold pf. rewrite (Hp0 e q Hq). exact Hq.
      * intros y. rewrite Hm. split; intros [Hy H]; (split; [exact Hy|]).
        -- apply Hc; auto.
        -- symmetry. apply Hc; auto.
      * exact Bm.
Qed.
End Spec.
