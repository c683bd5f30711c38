From Coq Require Import List Arith Bool ZArith Lia Permutation Relations.
From Verif Require Import PartSubsets_Model.
Import ListNotations.
Open Scope nat_scope.

Definition united_pair (o : op) : list (part * part) :=
  match o with OUnite p q _ => [(p, q)] | OGround _ => [] end.
Definition united (ops : list op) : list (part * part) := flat_map united_pair ops.
Definition related (l : list (nat * nat)) : nat -> nat -> Prop :=
  clos_refl_sym_trans nat (fun a b => In (a, b) l).
Definition op_in (ps : list part) (o : op) : Prop :=
  match o with OUnite p q _ => In p ps /\ In q ps | OGround p => In p ps end.

(** Consistency of the pile-ups at the beginning of a frame, for the parts [ps] that exist: the parts refer to
    an allocated pile-up that contains them, and the pile-up contains no live part that does not refer to it. *)
Record pile_ups_ok (ps : list part) (s : state) : Prop := {
  ok_in : forall p u, In p ps -> containing s p = Some u -> In p (pile_parts s u) /\ u < next s;
  ok_nodup : forall p u, In p ps -> containing s p = Some u -> NoDup (pile_parts s u);
  ok_back : forall p q u, In p ps -> In q ps -> containing s q = Some u -> In p (pile_parts s u) ->
              containing s p = Some u }.

Lemma existsb_in p l : existsb (Nat.eqb p) l = true <-> In p l.
Proof.
  rewrite existsb_exists. split.
  - intros (x & Hx & E). apply Nat.eqb_eq in E. subst. exact Hx.
  - intros H. exists p. split; [exact H | apply Nat.eqb_refl].
Qed.
Lemma mem_in p x : mem p x = true <-> In p (members x).
Proof. apply existsb_in. Qed.

Lemma set_containing_in l v f p : In p l -> set_containing l v f p = v.
Proof. intros H. unfold set_containing. apply existsb_in in H. rewrite H. reflexivity. Qed.
Lemma set_containing_out l v f p : ~ In p l -> set_containing l v f p = f p.
Proof.
  intros H. unfold set_containing. destruct (existsb (Nat.eqb p) l) eqn:E; [|reflexivity].
  apply existsb_in in E. contradiction.
Qed.

(** * The partition *)
Definition all_members (l : list subset) : list part := flat_map members l.

Section Frame.
Variable ps : list part.
Variable s0 : state.
Hypothesis Hps : NoDup ps.
Hypothesis Hok : pile_ups_ok ps s0.

(** What is known of an uncollected subset. *)
Definition good (c : part -> option pile_up) (x : subset) : Prop :=
  parts x = members x /\ members x <> [] /\ collected x = false /\
  ((exists u, (forall p, In p (members x) -> containing s0 p = Some u /\ c p = Some u) /\
              missing x = (Z.of_nat (length (pile_parts s0 u)) - Z.of_nat (length (members x)))%Z)
   \/ ((forall p, In p (members x) -> c p = None) /\
       ~ (exists u, forall p, In p (members x) -> containing s0 p = Some u))).

Record Inv (prev : list (nat * nat)) (s : state) : Prop := {
  inv_pile : pile_parts s = pile_parts s0;
  inv_next : next s = next s0;
  inv_perm : Permutation (all_members (subsets s)) ps;
  inv_good : forall x, In x (subsets s) -> good (containing s) x;
  inv_rel : forall x p q, In x (subsets s) -> In p (members x) -> In q ps ->
              (In q (members x) <-> related prev p q) }.

Lemma nodup_members l : NoDup (all_members l) ->
  (forall x, In x l -> NoDup (members x)) /\
  (forall x y p, In x l -> In y l -> In p (members x) -> In p (members y) -> x = y).
Proof.
  induction l as [|a l IH]; intros H; [split; [intros x [] | intros x y p []]|].
  cbn in H.
  assert (NoDup (members a) /\ NoDup (all_members l) /\
          (forall p, In p (members a) -> In p (all_members l) -> False)) as (Ha & Hl & Hd).
  { clear IH. induction (members a) as [|m t IHt]; [repeat split; [constructor | exact H | intros p []]|].
    cbn in H. inversion H as [|? ? Hni Hnd]; subst. destruct (IHt Hnd) as (A & B & C).
    repeat split; [constructor; [intros Hm; apply Hni, in_or_app; auto | exact A] | exact B |].
    intros p [<-|Hp] Hq; [apply Hni, in_or_app; auto | apply (C p); assumption]. }
  destruct (IH Hl) as [I1 I2]. split.
  - intros x [<-|Hx]; auto.
  - assert (Hin : forall x p, In x l -> In p (members x) -> In p (all_members l)).
    { intros x p Hx Hp. apply in_flat_map. exists x; auto. }
    intros x y p [<-|Hx] [<-|Hy] Hpx Hpy; auto.
    + exfalso. apply (Hd p); eauto.
    + exfalso. apply (Hd p); eauto.
    + apply (I2 x y p); assumption.
Qed.

Lemma find_subset l p : In p (all_members l) ->
  exists x, find (mem p) l = Some x /\ In x l /\ In p (members x).
Proof.
  intros H. destruct (find (mem p) l) as [x|] eqn:E.
  - apply find_some in E as [E1 E2]. apply mem_in in E2. eauto.
  - exfalso. apply in_flat_map in H as (x & Hx & Hp).
    pose proof (find_none _ _ E x Hx) as Hn. apply mem_in in Hp. congruence.
Qed.

Lemma NoDup_app_remove_l {A} (l l' : list A) : NoDup (l ++ l') -> NoDup l'.
Proof. induction l as [|a l IH]; [auto|]. cbn. intros H. inversion H. auto. Qed.
Lemma NoDup_app_remove_r {A} (l l' : list A) : NoDup (l ++ l') -> NoDup l.
Proof.
  induction l as [|a l IH]; [constructor|]. cbn. intros H. inversion H as [|? ? H1 H2]; subst.
  constructor; [intros Hi; apply H1, in_or_app; auto | auto].
Qed.

Lemma forallb_filter_id {A} (f : A -> bool) l : forallb f l = true -> filter f l = l.
Proof.
  induction l as [|a l IH]; [reflexivity|]. cbn. intros H. apply andb_prop in H as [H1 H2]. rewrite H1, IH by exact H2.
  reflexivity.
Qed.

Lemma filter_remove l x p : NoDup (all_members l) -> In x l -> In p (members x) ->
  Permutation (all_members l) (members x ++ all_members (filter (fun z => negb (mem p z)) l)).
Proof.
  induction l as [|a l IH]; intros Hnd Hx Hp; [destruct Hx|].
  destruct (nodup_members _ Hnd) as [_ Huniq].
  cbn [filter]. destruct (mem p a) eqn:E; cbn [negb].
  - assert (a = x) by (apply (Huniq a x p); [left; reflexivity | exact Hx | apply mem_in; exact E | exact Hp]).
    subst a. cbn. apply Permutation_app_head.
    replace (filter (fun z => negb (mem p z)) l) with l; [reflexivity|].
    symmetry. apply forallb_filter_id. apply forallb_forall. intros z Hz. apply negb_true_iff.
    destruct (mem p z) eqn:Ez; [|reflexivity]. apply mem_in in Ez.
    (* p would be twice in all_members *)
    exfalso. cbn in Hnd. apply NoDup_app_remove_l in Hnd as Hnd2.
    clear - Hnd Hp Hz Ez. 
    assert (In p (all_members l)) by (apply in_flat_map; eauto).
    apply in_split in Hp as (l1 & l2 & E). rewrite E in Hnd. rewrite <- app_assoc in Hnd.
    apply NoDup_remove_2 in Hnd. apply Hnd. apply in_or_app; right; apply in_or_app; right; exact H.
  - destruct Hx as [->|Hx].
    + apply mem_in in Hp. congruence.
    + cbn. cbn in Hnd. apply NoDup_app_remove_l in Hnd.
      rewrite (IH Hnd Hx Hp). rewrite !app_assoc. apply Permutation_app_tail, Permutation_app_comm.
Qed.

Lemma filter_other l p x : NoDup (all_members l) -> In p (all_members l) ->
  In x (filter (fun z => negb (mem p z)) l) -> In x l /\ ~ In p (members x).
Proof.
  intros _ _ H. apply filter_In in H as [H1 H2]. split; [exact H1|]. intros Hp. apply mem_in in Hp.
  rewrite Hp in H2. discriminate.
Qed.

(** Changing the pile-up of parts outside a subset does not affect it. *)
Lemma good_ext c c' x : (forall p, In p (members x) -> c' p = c p) -> good c x -> good c' x.
Proof.
  intros H (A & B & C & D). split; [exact A|]. split; [exact B|]. split; [exact C|].
  destruct D as [(u & D1 & D2)|[D1 D2]].
  - left. exists u. split; [|exact D2]. intros p Hp. rewrite H by exact Hp. apply D1; exact Hp.
  - right. split; [|exact D2]. intros p Hp. rewrite H by exact Hp. apply D1; exact Hp.
Qed.

(** Two disjoint subsets of one pile-up fit in it. *)
Lemma sizes u l : u < next s0 -> NoDup l -> (forall p, In p l -> In p ps /\ containing s0 p = Some u) ->
  length l <= length (pile_parts s0 u).
Proof.
  intros Hu Hnd H. apply NoDup_incl_length; [exact Hnd|]. intros p Hp.
  destruct (H p Hp) as [Hin Hc]. apply (ok_in _ _ Hok p u); assumption.
Qed.

Lemma merge_good s this other :
  good (containing s) this -> good (containing s) other ->
  NoDup (members this ++ members other) ->
  (forall p, In p (members this ++ members other) -> In p ps) ->
  exists c m, MergeWith s this other = Some (c, m) /\
    members m = members this ++ members other /\
    good c m /\
    (forall p, ~ In p (members this ++ members other) -> c p = containing s p).
Proof.
  intros (A1 & B1 & C1 & D1) (A2 & B2 & C2 & D2) Hnd Hin.
  unfold MergeWith, SubsetsOfSamePileUp, front_pile_up.
  destruct this as [tm tp tmiss tg tc], other as [om op omiss og oc]. cbn [members parts missing grounded collected] in *.
  subst tp op. destruct tm as [|t0 tm]; [congruence|]. destruct om as [|o0 om]; [congruence|].
  set (T := t0 :: tm) in *. set (O := o0 :: om) in *.
  assert (HT0 : In t0 T) by (left; reflexivity). assert (HO0 : In o0 O) by (left; reflexivity).
  cbn [members parts].
  assert (Hnone : forall c', (forall p, In p (T ++ O) -> c' p = None) ->
     ~ (exists u, forall p, In p (T ++ O) -> containing s0 p = Some u) ->
     good c' (Subset (T ++ O) (T ++ O) tmiss (tg || og) tc)).
  { intros c' Hc' Hnu. split; [reflexivity|]. split; [discriminate|]. split; [exact C1|]. right. split; assumption. }
  set (cc := set_containing O None (set_containing T None (containing s))).
  assert (Hcc : forall p, In p (T ++ O) -> cc p = None).
  { intros p Hp. unfold cc. destruct (in_dec Nat.eq_dec p O).
    - apply set_containing_in. assumption.
    - rewrite set_containing_out by assumption. apply in_app_or in Hp as [Hp|Hp]; [|contradiction].
      apply set_containing_in. assumption. }
  assert (Hcc' : forall p, ~ In p (T ++ O) -> cc p = containing s p).
  { intros p Hp. unfold cc. rewrite !set_containing_out; [reflexivity| |]; intros Hi; apply Hp, in_or_app; auto. }
  destruct D1 as [(u & D1 & M1)|[D1 N1]].
  - destruct (D1 t0 HT0) as [_ Et]. cbn [parts]. rewrite Et.
    destruct D2 as [(v & D2 & M2)|[D2 N2]].
    + destruct (D2 o0 HO0) as [_ Eo]. rewrite Eo.
      destruct (Nat.eqb_spec u v) as [->|Huv].
      * (* same pile-up *)
        assert (Hv : v < next s0).
        { apply (ok_in _ _ Hok t0 v); [apply Hin, in_or_app; left; exact HT0 | apply D1; exact HT0]. }
        assert (Hlen : length (T ++ O) <= length (pile_parts s0 v)).
        { apply sizes; [exact Hv | exact Hnd |]. intros p Hp. split; [apply Hin; exact Hp|].
          apply in_app_or in Hp as [Hp|Hp]; [apply D1 | apply D2]; exact Hp. }
        rewrite app_length in Hlen.
        replace (tmiss - Z.of_nat (length O) =? omiss - Z.of_nat (length T))%Z with true
          by (symmetry; apply Z.eqb_eq; lia).
        replace (0 <=? tmiss - Z.of_nat (length O))%Z with true by (symmetry; apply Z.leb_le; lia).
        eexists _, _; split; [reflexivity|]. split; [reflexivity|]. split; [|auto].
        split; [reflexivity|]. split; [discriminate|]. split; [exact C1|]. left. exists v.
        cbn [members missing]. split.
        -- intros p Hp. apply in_app_or in Hp as [Hp|Hp]; [apply D1 | apply D2]; exact Hp.
        -- rewrite app_length. lia.
      * eexists _, _; split; [reflexivity|]. split; [reflexivity|]. split; [|exact Hcc'].
        apply Hnone; [exact Hcc|]. intros (w & Hw).
        destruct (D1 t0 HT0) as [E1 _]. destruct (D2 o0 HO0) as [E2 _].
        rewrite Hw in E1 by (apply in_or_app; auto). rewrite Hw in E2 by (apply in_or_app; auto). congruence.
    + rewrite (D2 o0 HO0). eexists _, _; split; [reflexivity|]. split; [reflexivity|]. split; [|exact Hcc'].
      apply Hnone; [exact Hcc|]. intros (w & Hw). apply N2. exists w. intros p Hp. apply Hw, in_or_app; auto.
  - cbn [parts]. rewrite (D1 t0 HT0).
    assert (Hnt : ~ (exists u, forall p, In p (T ++ O) -> containing s0 p = Some u)).
    { intros (w & Hw). apply N1. exists w. intros p Hp. apply Hw, in_or_app; auto. }
    destruct (containing s o0); (eexists _, _; split; [reflexivity|]; split; [reflexivity|];
      split; [apply Hnone; assumption | exact Hcc']).
Qed.

Lemma related_mono l l' x y : (forall p, In p l -> In p l') -> related l x y -> related l' x y.
Proof.
  intros H. unfold related. induction 1.
  - apply rst_step. apply H. assumption.
  - apply rst_refl.
  - apply rst_sym. assumption.
  - eapply rst_trans; eassumption.
Qed.

Lemma step_inv prev s o : Inv prev s -> op_in ps o ->
  (forall a b, In (a, b) prev -> In a ps /\ In b ps) ->
  exists s', step o s = Some s' /\ Inv (prev ++ united_pair o) s'.
Proof.
  intros HI Ho Hprev. destruct HI as [Hpile Hnext Hperm Hgood Hrel].
  assert (Hnd : NoDup (all_members (subsets s))) by (apply (Permutation_NoDup (Permutation_sym Hperm)); exact Hps).
  destruct (nodup_members _ Hnd) as [Hndm Huniq].
  assert (Hmem_ps : forall x p, In x (subsets s) -> In p (members x) -> In p ps).
  { intros x p Hx Hp. apply (Permutation_in _ Hperm). apply in_flat_map; eauto. }
  assert (Hps_in : forall p, In p ps -> In p (all_members (subsets s))).
  { intros p Hp. apply (Permutation_in _ (Permutation_sym Hperm)). exact Hp. }
  assert (Hrel_ps : forall l a b, (forall a b, In (a, b) l -> In a ps /\ In b ps) ->
            related l a b -> (In a ps <-> In b ps)).
  { intros l a b Hl. induction 1; try tauto. apply Hl in H. tauto. }
  destruct o as [p q f|p]; cbn [step op_in united_pair] in *.
  - destruct Ho as [Hp Hq]. unfold Unite.
    destruct (find_subset _ p (Hps_in p Hp)) as (x & -> & Hx & Hpx).
    destruct (find_subset _ q (Hps_in q Hq)) as (y & -> & Hy & Hqy).
    assert (Hinc : forall l u v, related prev u v -> related (prev ++ l) u v).
    { intros l u v. apply related_mono. intros r Hr. apply in_or_app; auto. }
    destruct (mem q x) eqn:Eq.
    + apply mem_in in Eq. exists s. split; [reflexivity|]. constructor; auto.
      intros z a b Hz Ha Hb. rewrite (Hrel z a b Hz Ha Hb). split; [apply Hinc|].
      clear - Hrel Hx Hpx Hq Eq. induction 1 as [u v Huv| |u v _ IH|u v t _ IH1 _ IH2].
      * apply in_app_or in Huv as [Huv|[Huv|[]]]; [apply rst_step; exact Huv|].
        injection Huv as -> ->. apply (Hrel x u v Hx Hpx Hq). exact Eq.
      * apply rst_refl.
      * apply rst_sym; exact IH.
      * eapply rst_trans; eassumption.
    + assert (Hqx : ~ In q (members x)) by (intros Hi; apply mem_in in Hi; congruence).
      assert (Hxy : x <> y) by (intros ->; contradiction).
      assert (Hpy : ~ In p (members y)) by (intros Hi; apply Hxy; apply (Huniq x y p); assumption).
      set (rest := filter (fun z => negb (mem p z) && negb (mem q z)) (subsets s)).
      assert (Hrest : Permutation (all_members (subsets s)) (members x ++ members y ++ all_members rest)).
      { rewrite (filter_remove _ x p Hnd Hx Hpx). apply Permutation_app_head.
        set (l1 := filter (fun z => negb (mem p z)) (subsets s)).
        assert (Hl1 : NoDup (all_members l1)).
        { pose proof (Permutation_NoDup (filter_remove _ x p Hnd Hx Hpx) Hnd) as H1.
          apply NoDup_app_remove_l in H1. exact H1. }
        assert (Hyl1 : In y l1).
        { apply filter_In. split; [exact Hy|]. destruct (mem p y) eqn:E; [|reflexivity].
          apply mem_in in E. contradiction. }
        rewrite (filter_remove l1 y q Hl1 Hyl1 Hqy).
        replace (filter (fun z => negb (mem q z)) l1) with rest; [reflexivity|].
        unfold rest, l1. clear. induction (subsets s) as [|a l IH]; [reflexivity|].
        cbn [filter]. destruct (mem p a); cbn [negb andb filter]; [exact IH|].
        destruct (mem q a); cbn [negb]; [exact IH|]. f_equal. exact IH. }
      assert (Hnd2 : NoDup (members x ++ members y ++ all_members rest))
        by (apply (Permutation_NoDup Hrest); exact Hnd).
      (* the result, for either orientation *)
      assert (Hmain : forall this other, (this = x /\ other = y \/ this = y /\ other = x) ->
        exists c m, MergeWith s this other = Some (c, m) /\
          Inv (prev ++ [(p, q)]) (State c (pile_parts s) (next s) (m :: rest))).
      { intros this other Hto.
        assert (Pto : Permutation (members this ++ members other) (members x ++ members y)).
        { destruct Hto as [[-> ->]|[-> ->]]; [reflexivity | apply Permutation_app_comm]. }
        assert (Hxyin : forall r, In r (members this ++ members other) <-> In r (members x) \/ In r (members y)).
        { intros r. rewrite (Permutation_in' eq_refl Pto). apply in_app_iff. }
        destruct (merge_good s this other) as (c & m & E & Em & Hg & Hc).
        - destruct Hto as [[-> ->]|[-> ->]]; apply Hgood; assumption.
        - destruct Hto as [[-> ->]|[-> ->]]; apply Hgood; assumption.
        - apply (Permutation_NoDup (Permutation_sym Pto)). rewrite app_assoc in Hnd2.
          apply NoDup_app_remove_r in Hnd2. exact Hnd2.
        - intros r Hr. apply Hxyin in Hr as [Hr|Hr]; [apply (Hmem_ps x r Hx Hr) | apply (Hmem_ps y r Hy Hr)].
        - exists c, m. split; [exact E|].
          assert (Hrest_in : forall z, In z rest -> In z (subsets s) /\ ~ In p (members z) /\ ~ In q (members z)).
          { intros z Hz. apply filter_In in Hz as [Hz1 Hz2]. apply andb_prop in Hz2 as [Hz2 Hz3].
            split; [exact Hz1|]. split; intros Hi; apply mem_in in Hi; [rewrite Hi in Hz2 | rewrite Hi in Hz3]; discriminate. }
          constructor; cbn [pile_parts next subsets containing]; auto.
          + change (all_members (m :: rest)) with (members m ++ all_members rest). rewrite Em, Pto, <- app_assoc, <- Hrest. exact Hperm.
          + intros z [<-|Hz]; [exact Hg|]. destruct (Hrest_in z Hz) as (Hz1 & Hz2 & Hz3).
            apply good_ext with (containing s); [|apply Hgood; exact Hz1].
            intros r Hr. apply Hc. intros Hi. apply Hxyin in Hi as [Hi|Hi].
            * apply Hz2. replace z with x; [exact Hpx|]. apply (Huniq x z r); assumption.
            * apply Hz3. replace z with y; [exact Hqy|]. apply (Huniq y z r); assumption.
          + (* relation: classes as in the union-find *)
            assert (Hx_rel : forall r, In r ps -> (In r (members x) <-> related prev p r)) by (intros; apply Hrel; assumption).
            assert (Hy_rel : forall r, In r ps -> (In r (members y) <-> related prev q r)) by (intros; apply Hrel; assumption).
            assert (Hpq : related (prev ++ [(p, q)]) p q).
            { apply rst_step. apply in_or_app. right. left. reflexivity. }
            assert (Hin_m : forall r, In r (members m) <-> In r (members x) \/ In r (members y)).
            { intros r. rewrite Em. apply Hxyin. }
            (* closed sets *)
            assert (Hclosed : forall (S : part -> Prop),
               (forall a b, In a ps -> In b ps -> related prev a b -> (S a <-> S b)) -> (S p <-> S q) ->
               forall a b, related (prev ++ [(p, q)]) a b -> In a ps -> (S a <-> S b)).
            { intros S HS Spq a b Hab. induction Hab as [u v Huv| |u v Huv IH|u v t Huv IH1 Hvt IH2]; intros Ha.
              - apply in_app_or in Huv as [Huv|[Huv|[]]].
                + apply HS; [exact Ha | apply Hprev in Huv; tauto | apply rst_step; exact Huv].
                + injection Huv as -> ->. exact Spq.
              - tauto.
              - symmetry. apply IH.
                assert (In u ps <-> In v ps).
                { apply (Hrel_ps (prev ++ [(p, q)])); [|exact Huv]. intros a b Hab.
                  apply in_app_or in Hab as [Hab|[Hab|[]]]; [apply Hprev; exact Hab|]. injection Hab as <- <-. auto. }
                tauto.
              - rewrite IH1 by exact Ha. apply IH2.
                assert (In u ps <-> In v ps).
                { apply (Hrel_ps (prev ++ [(p, q)])); [|exact Huv]. intros a b Hab.
                  apply in_app_or in Hab as [Hab|[Hab|[]]]; [apply Hprev; exact Hab|]. injection Hab as <- <-. auto. }
                tauto. }
            assert (Hcl : forall z, In z (subsets s) -> forall a b, In a ps -> In b ps -> related prev a b ->
                      (In a (members z) <-> In b (members z))).
            { intros z Hz a b Ha Hb Hab. split; intros Hi.
              - apply (Hrel z a b Hz Hi Hb). exact Hab.
              - apply (Hrel z b a Hz Hi Ha). apply rst_sym; exact Hab. }
            intros z a b Hz Ha Hb. destruct Hz as [<-|Hz].
            * assert (Haps : In a ps).
              { apply Hin_m in Ha as [Ha|Ha]; [apply (Hmem_ps x a Hx Ha) | apply (Hmem_ps y a Hy Ha)]. }
              split.
              -- intros Hbm.
                 assert (Hto_p : forall r, In r ps -> In r (members m) -> related (prev ++ [(p, q)]) p r).
                 { intros r Hr Hrm. apply Hin_m in Hrm as [Hrm|Hrm].
                   - apply Hinc. apply Hx_rel; assumption.
                   - apply rst_trans with q; [exact Hpq|]. apply Hinc. apply Hy_rel; assumption. }
                 apply rst_trans with p; [apply rst_sym; apply Hto_p; assumption | apply Hto_p; assumption].
              -- intros Hab.
                 apply (Hclosed (fun r => In r (members m))) in Hab; [tauto | | | exact Haps].
                 ++ intros u v Hu Hv Huv. rewrite !Hin_m. rewrite (Hcl x Hx u v Hu Hv Huv), (Hcl y Hy u v Hu Hv Huv). tauto.
                 ++ rewrite !Hin_m. tauto.
            * destruct (Hrest_in z Hz) as (Hz1 & Hz2 & Hz3).
              split.
              -- intros Hbz. apply Hinc. apply (Hrel z a b Hz1 Ha Hb). exact Hbz.
              -- intros Hab. apply (Hclosed (fun r => In r (members z))) in Hab; [tauto | | tauto | apply (Hmem_ps z a Hz1 Ha)].
                 apply Hcl. exact Hz1. }
      destruct f; [destruct (Hmain y x) as (c & m & -> & HI); auto | destruct (Hmain x y) as (c & m & -> & HI); auto];
        (eexists; split; [reflexivity | exact HI]).
  - unfold Ground. destruct (find_subset _ p (Hps_in p Ho)) as (x & -> & Hx & Hpx).
    eexists; split; [reflexivity|]. rewrite app_nil_r.
    constructor; cbn [pile_parts next subsets containing]; auto.
    + etransitivity; [|exact Hperm]. symmetry. apply (filter_remove _ x p Hnd Hx Hpx).
    + intros z [<-|Hz].
      * destruct (Hgood x Hx) as (A & B & C & D). split; [exact A|]. split; [exact B|]. split; [exact C|]. exact D.
      * apply filter_In in Hz as [Hz _]. apply Hgood; exact Hz.
    + intros z a b [<-|Hz] Ha Hb.
      * apply (Hrel x a b Hx Ha Hb).
      * apply filter_In in Hz as [Hz _]. apply Hrel; assumption.
Qed.

Lemma run_inv ops : forall prev s, Inv prev s -> Forall (op_in ps) ops ->
  (forall a b, In (a, b) prev -> In a ps /\ In b ps) ->
  exists s', run ops s = Some s' /\ Inv (prev ++ united ops) s'.
Proof.
  induction ops as [|o ops IH]; intros prev s HI Hops Hprev.
  - exists s. cbn. rewrite app_nil_r. auto.
  - inversion Hops as [|? ? Ho Hops']; subst.
    destruct (step_inv prev s o HI Ho Hprev) as (s1 & E & HI1). cbn [run]. rewrite E.
    destruct (IH (prev ++ united_pair o) s1 HI1 Hops') as (s' & E' & HI').
    + intros a b Hab. apply in_app_or in Hab as [Hab|Hab]; [apply Hprev; exact Hab|].
      destruct o; cbn in Hab; [|destruct Hab]. destruct Hab as [Hab|[]]. injection Hab as <- <-. exact Ho.
    + exists s'. split; [exact E'|]. cbn [united flat_map]. rewrite app_assoc. exact HI'.
Qed.

Lemma prepare_inv : Inv [] (prepare ps s0).
Proof.
  constructor; cbn [prepare pile_parts next subsets containing]; auto.
  - unfold all_members. rewrite flat_map_concat_map, map_map. cbn. 
    replace (concat (map (fun x => [x]) ps)) with ps; [reflexivity|].
    clear. induction ps as [|a l IH]; [reflexivity|]. cbn. f_equal; exact IH.
  - intros x Hx. apply in_map_iff in Hx as (p & <- & Hp).
    split; [reflexivity|]. split; [discriminate|]. split; [reflexivity|]. cbn.
    destruct (containing s0 p) as [u|] eqn:E.
    + left. exists u. split; [|lia]. intros r [<-|[]]. auto.
    + right. split; [intros r [<-|[]]; exact E|]. intros (u & Hu). specialize (Hu p (or_introl eq_refl)). congruence.
  - intros x p q Hx Hp Hq. apply in_map_iff in Hx as (r & <- & Hr). cbn in Hp. destruct Hp as [<-|[]].
    cbn. split.
    + intros [<-|[]]. apply rst_refl.
    + intros H. left. clear - H. induction H; [destruct H | reflexivity | congruence | congruence].
Qed.

(** * Collection *)

(** A collected subset: all its parts are in one pile-up, whose parts are exactly those of the subset; either
    a fresh one or the one that had exactly these parts. *)
Definition done (s : state) (x : subset) : Prop :=
  members x <> [] /\
  exists u, (forall p, In p (members x) -> containing s p = Some u) /\
    Permutation (pile_parts s u) (members x) /\ u < next s /\
    ((next s0 <= u /\ ~ (exists v, v < next s0 /\ (exists p, In p (members x) /\ containing s0 p = Some v) /\
                          Permutation (pile_parts s0 v) (members x)))
     \/ (u < next s0 /\ pile_parts s0 u = pile_parts s u /\ forall p, In p (members x) -> containing s0 p = Some u)).

Record CInv (prev : list (nat * nat)) (s : state) : Prop := {
  cinv_next : next s0 <= next s;
  cinv_pile : forall u, u < next s0 -> pile_parts s u = pile_parts s0 u;
  cinv_perm : Permutation (all_members (subsets s)) ps;
  cinv_good : forall x, In x (subsets s) -> (collected x = false /\ good (containing s) x) \/ (collected x = true /\ done s x);
  cinv_rel : forall x p q, In x (subsets s) -> In p (members x) -> In q ps ->
              (In q (members x) <-> related prev p q);
  (* fresh pile-ups belong to only one subset *)
  cinv_fresh : forall x y p q u, In x (subsets s) -> In y (subsets s) -> In p (members x) -> In q (members y) ->
              collected x = true -> collected y = true ->
              containing s p = Some u -> containing s q = Some u -> x = y }.

Lemma inv_cinv prev s : Inv prev s -> CInv prev s.
Proof.
  intros [A B C D E]. constructor; auto.
  - lia.
  - intros u _. rewrite A. reflexivity.
  - intros x Hx. left. pose proof (D x Hx) as G. split; [apply G|exact G].
  - intros x y p q u Hx Hy _ _ Hcx. destruct (D x Hx) as (_ & _ & Hc & _). congruence.
Qed.

Lemma perm_same_len (l l' : list part) : NoDup l -> NoDup l' -> length l = length l' -> incl l l' -> Permutation l l'.
Proof. intros H1 H2 H3 H4. apply NoDup_Permutation_bis; [exact H1 | lia | exact H4]. Qed.

Lemma collect_inv prev s p : CInv prev s -> In p ps ->
  exists s', Collect p s = Some s' /\ CInv prev s' /\
    (exists x, In x (subsets s') /\ In p (members x) /\ collected x = true) /\
    (forall x, In x (subsets s) -> collected x = true -> In x (subsets s')).
Proof.
  intros [Hnext Hpile Hperm Hgood Hrel Hfresh] Hp.
  assert (Hnd : NoDup (all_members (subsets s))) by (apply (Permutation_NoDup (Permutation_sym Hperm)); exact Hps).
  destruct (nodup_members _ Hnd) as [Hndm Huniq].
  assert (Hmem_ps : forall x r, In x (subsets s) -> In r (members x) -> In r ps).
  { intros x r Hx Hr. apply (Permutation_in _ Hperm). apply in_flat_map; eauto. }
  unfold Collect.
  destruct (find_subset (subsets s) p) as (x & -> & Hx & Hpx).
  { apply (Permutation_in _ (Permutation_sym Hperm)). exact Hp. }
  set (others := filter (fun z => negb (mem p z)) (subsets s)).
  assert (Hothers : forall z, In z others -> In z (subsets s) /\ z <> x).
  { intros z Hz. apply filter_In in Hz as [Hz1 Hz2]. split; [exact Hz1|]. intros ->.
    apply mem_in in Hpx. rewrite Hpx in Hz2. discriminate. }
  assert (Hothers' : forall z, In z (subsets s) -> z <> x -> In z others).
  { intros z Hz Hn. apply filter_In. split; [exact Hz|]. apply negb_true_iff.
    destruct (mem p z) eqn:E; [|reflexivity]. apply mem_in in E. exfalso. apply Hn. apply (Huniq z x p); assumption. }
  assert (Hperm' : forall y, members y = members x -> Permutation (all_members (y :: others)) ps).
  { intros y Ey. change (all_members (y :: others)) with (members y ++ all_members others). rewrite Ey.
    etransitivity; [|exact Hperm]. symmetry. apply (filter_remove _ x p Hnd Hx Hpx). }
  destruct (collected x) eqn:Ecol.
  { exists s. split; [reflexivity|]. split; [constructor; auto|]. split; [exists x; auto|auto]. }
  destruct (Hgood x Hx) as [[_ G]|[H _]]; [|congruence].
  destruct G as (A & B & C & D).
  assert (exists m0 mt, members x = m0 :: mt) as (m0 & mt & Em)
    by (destruct (members x) as [|m0 mt]; [congruence | eauto]).
  replace (front_pile_up s x) with (Some (containing s m0)) by (unfold front_pile_up; rewrite A, Em; reflexivity).
  assert (Hm0 : In m0 (members x)) by (rewrite Em; left; reflexivity).
  assert (Hkeep : forall z, In z (subsets s) -> collected z = true -> In z others)
    by (intros z Hz Hc; apply Hothers'; [exact Hz | congruence]).
  (* generic part for the creation of a new pile-up *)
  assert (Hnew : forall c,
     (forall r, In r (members x) -> c r = Some (next s)) ->
     (forall r, ~ In r (members x) -> c r = containing s r) ->
     ~ (exists v, v < next s0 /\ (exists r, In r (members x) /\ containing s0 r = Some v) /\
                  Permutation (pile_parts s0 v) (members x)) ->
     let s' := State c (fun v => if Nat.eqb v (next s) then parts x else pile_parts s v) (S (next s))
                 (Subset (members x) [] (missing x) (grounded x) true :: others) in
     CInv prev s' /\ (exists y, In y (subsets s') /\ In p (members y) /\ collected y = true) /\
     (forall y, In y (subsets s) -> collected y = true -> In y (subsets s'))).
  { intros c Hc1 Hc2 Hno. cbv zeta. split; [|split].
    2:{ eexists; split; [left; reflexivity|]. cbn. auto. }
    2:{ intros y Hy Hcy. right. apply Hkeep; assumption. }
    assert (Hout : forall z r, In z others -> In r (members z) -> ~ In r (members x)).
    { intros z r Hz Hr Hi. destruct (Hothers z Hz) as [Hz1 Hz2]. apply Hz2. apply (Huniq z x r); assumption. }
    constructor; cbn [next pile_parts subsets containing].
    - lia.
    - intros u Hu. destruct (Nat.eqb_spec u (next s)); [lia|]. apply Hpile; exact Hu.
    - apply Hperm'. reflexivity.
    - intros z [<-|Hz].
      + right. split; [reflexivity|]. split; [cbn [members]; congruence|]. exists (next s).
        cbn [members containing pile_parts next]. rewrite Nat.eqb_refl. split; [exact Hc1|].
        split; [rewrite A; reflexivity|]. split; [lia|]. left. split; [lia | exact Hno].
      + destruct (Hothers z Hz) as [Hz1 Hz2]. destruct (Hgood z Hz1) as [[H1 H2]|[H1 H2]].
        * left. split; [exact H1|]. apply good_ext with (containing s); [|exact H2].
          intros r Hr. apply Hc2. apply (Hout z r Hz Hr).
        * right. split; [exact H1|]. destruct H2 as (N & u & U1 & U2 & U3 & U4). split; [exact N|].
          exists u. cbn [containing pile_parts next]. destruct (Nat.eqb_spec u (next s)); [lia|].
          split; [intros r Hr; rewrite Hc2 by (apply (Hout z r Hz Hr)); apply U1; exact Hr|].
          split; [exact U2|]. split; [lia | exact U4].
    - intros z a b [<-|Hz] Ha Hb.
      + cbn [members] in *. apply (Hrel x a b Hx Ha Hb).
      + apply Hrel; [apply Hothers; exact Hz | assumption | assumption].
    - assert (Hlt : forall z r u, In z others -> In r (members z) -> collected z = true -> c r = Some u -> u <> next s).
      { intros z r u Hz Hr Hcz Hu. destruct (Hothers z Hz) as [Hz1 _].
        destruct (Hgood z Hz1) as [[H1 _]|[_ (N & w & U1 & U2 & U3 & U4)]]; [congruence|].
        rewrite Hc2 in Hu by (apply (Hout z r Hz Hr)). rewrite U1 in Hu by exact Hr. injection Hu as <-. lia. }
      intros y z a b u [<-|Hy] [<-|Hz] Ha Hb Hcy Hcz Hua Hub; cbn [members collected] in *; auto.
      + exfalso. rewrite Hc1 in Hua by exact Ha. injection Hua as <-. exact (Hlt z b _ Hz Hb Hcz Hub eq_refl).
      + exfalso. rewrite Hc1 in Hub by exact Hb. injection Hub as <-. exact (Hlt y a _ Hy Ha Hcy Hua eq_refl).
      + rewrite Hc2 in Hua by (apply (Hout y a Hy Ha)). rewrite Hc2 in Hub by (apply (Hout z b Hz Hb)).
        apply (Hfresh y z a b u); try assumption; apply Hothers; assumption. }
  destruct D as [(u & D1 & D2)|[D1 D2]].
  - rewrite (proj2 (D1 m0 Hm0)). cbn [andb].
    assert (Hu : u < next s0).
    { apply (ok_in _ _ Hok m0 u); [apply (Hmem_ps x m0 Hx Hm0) | apply D1; exact Hm0]. }
    assert (Hincl : incl (members x) (pile_parts s0 u)).
    { intros r Hr. apply (ok_in _ _ Hok r u); [apply (Hmem_ps x r Hx Hr) | apply D1; exact Hr]. }
    assert (Hle : length (members x) <= length (pile_parts s0 u)).
    { apply NoDup_incl_length; [apply Hndm; exact Hx | exact Hincl]. }
    destruct (Z.eqb_spec (missing x) 0) as [E0|E0].
    + (* equals an existing pile-up *)
      eexists; split; [reflexivity|]. split; [|split].
      2:{ eexists; split; [left; reflexivity|]. cbn. auto. }
      2:{ intros y Hy Hcy. right. apply Hkeep; assumption. }
      constructor; cbn [next pile_parts subsets containing]; auto.
      * intros z [<-|Hz].
        -- right. split; [reflexivity|]. split; [exact B|]. exists u. cbn [members containing pile_parts next].
           split; [intros r Hr; apply D1; exact Hr|]. split.
           ++ rewrite Hpile by exact Hu. symmetry. apply perm_same_len;
                [apply Hndm; exact Hx | apply (ok_nodup _ _ Hok m0 u); [apply (Hmem_ps x m0 Hx Hm0) | apply D1; exact Hm0] | lia | exact Hincl].
           ++ split; [lia|]. right. split; [exact Hu|]. split; [symmetry; apply Hpile; exact Hu|].
              intros r Hr. apply D1; exact Hr.
        -- destruct (Hgood z (proj1 (Hothers z Hz))) as [H|H]; [left; exact H | right; exact H].
      * intros z a b [<-|Hz] Ha Hb; [cbn [members] in *; apply (Hrel x a b Hx Ha Hb)|].
        apply Hrel; [apply Hothers; exact Hz | assumption | assumption].
      * (* another collected subset cannot have pile-up u: it would contain x's parts *)
        assert (Hex : forall z b, In z others -> In b (members z) -> collected z = true -> containing s b = Some u -> False).
        { intros z b Hz Hb Hcz Hub. destruct (Hothers z Hz) as [Hz1 Hz2].
          destruct (Hgood z Hz1) as [[H1 _]|[_ (N & w & U1 & U2 & U3 & U4)]]; [congruence|].
          rewrite U1 in Hub by exact Hb. injection Hub as ->.
          destruct U4 as [[U4 _]|(U4 & U5 & U6)]; [lia|].
          apply Hz2. apply (Huniq z x m0); [exact Hz1 | exact Hx | | exact Hm0].
          apply (Permutation_in _ U2). rewrite <- U5. apply Hincl. exact Hm0. }
        intros y z a b v [<-|Hy] [<-|Hz] Ha Hb Hcy Hcz Hua Hub; cbn [members collected] in *; auto.
        -- exfalso. rewrite (proj2 (D1 a Ha)) in Hua. injection Hua as <-. eapply Hex; eassumption.
        -- exfalso. rewrite (proj2 (D1 b Hb)) in Hub. injection Hub as <-. eapply Hex; eassumption.
        -- apply (Hfresh y z a b v); try assumption; apply Hothers; assumption.
    + replace (0 <? missing x)%Z with true by (symmetry; apply Z.ltb_lt; lia).
      eexists; split; [reflexivity|]. apply Hnew.
      * intros r Hr. apply set_containing_in. rewrite A. exact Hr.
      * intros r Hr. rewrite !set_containing_out by (rewrite A; exact Hr). reflexivity.
      * intros (v & Hv & (r & Hr & Hrv) & Pv). rewrite (proj1 (D1 r Hr)) in Hrv. injection Hrv as <-.
        apply Permutation_length in Pv. lia.
  - rewrite (D1 m0 Hm0). cbn [andb].
    eexists; split; [reflexivity|]. apply Hnew.
    + intros r Hr. apply set_containing_in. rewrite A. exact Hr.
    + intros r Hr. rewrite !set_containing_out by (rewrite A; exact Hr). reflexivity.
    + intros (v & Hv & (w & Hw & Hwv) & Pv). apply D2. exists v. intros r Hr.
      apply (ok_back _ _ Hok r w v); [apply (Hmem_ps x r Hx Hr) | apply (Hmem_ps x w Hx Hw) | exact Hwv |].
      apply (Permutation_in _ (Permutation_sym Pv)). exact Hr.
Qed.

Lemma collect_all_inv prev cs : forall s, CInv prev s -> (forall p, In p cs -> In p ps) ->
  exists s', collect_all cs s = Some s' /\ CInv prev s' /\
    (forall p, In p cs -> exists x, In x (subsets s') /\ In p (members x) /\ collected x = true) /\
    (forall x, In x (subsets s) -> collected x = true -> In x (subsets s')).
Proof.
  induction cs as [|p cs IH]; intros s HC Hcs.
  - exists s. split; [reflexivity|]. split; [exact HC|]. split; [intros p []|auto].
  - destruct (collect_inv prev s p HC (Hcs p (or_introl eq_refl))) as (s1 & E & HC1 & (x & Hx1 & Hx2 & Hx3) & Hk).
    cbn [collect_all]. rewrite E.
    destruct (IH s1 HC1 (fun q Hq => Hcs q (or_intror Hq))) as (s' & E' & HC' & Hd & Hk').
    exists s'. split; [exact E'|]. split; [exact HC'|]. split.
    + intros q [<-|Hq]; [exists x; auto|]. apply Hd; exact Hq.
    + intros y Hy Hcy. apply Hk'; [apply Hk; assumption | exact Hcy].
Qed.

Theorem frame_correct ops cs : Forall (op_in ps) ops ->
  (forall p, In p cs -> In p ps) ->
  (forall p, In p ps -> exists q, In q cs /\ related (united ops) p q) ->
  exists s1 s', run ops (prepare ps s0) = Some s1 /\ collect_all cs s1 = Some s' /\
    (forall p, In p ps -> exists u, containing s' p = Some u /\
       (forall q, In q (pile_parts s' u) <-> In q ps /\ related (united ops) p q) /\ NoDup (pile_parts s' u)) /\
    (forall p q, In p ps -> In q ps -> (containing s' p = containing s' q <-> related (united ops) p q)) /\
    (forall p u, In p ps -> containing s0 p = Some u ->
       (containing s' p = Some u <-> forall q, In q (pile_parts s0 u) <-> In q ps /\ related (united ops) p q)) /\
    pile_ups_ok ps s'.
Proof.
  intros Hops Hcs Hcover.
  destruct (run_inv ops [] (prepare ps s0) prepare_inv Hops) as (s1 & E1 & HI); [intros a b []|].
  cbn [app] in HI.
  destruct (collect_all_inv (united ops) cs s1 (inv_cinv _ _ HI) Hcs) as (s' & E2 & HC & Hd & _).
  exists s1, s'. split; [exact E1|]. split; [exact E2|].
  destruct HC as [Hnext Hpile Hperm Hgood Hrel Hfresh].
  assert (Hnd : NoDup (all_members (subsets s'))) by (apply (Permutation_NoDup (Permutation_sym Hperm)); exact Hps).
  destruct (nodup_members _ Hnd) as [Hndm Huniq].
  assert (Hmem_ps : forall x r, In x (subsets s') -> In r (members x) -> In r ps).
  { intros x r Hx Hr. apply (Permutation_in _ Hperm). apply in_flat_map; eauto. }
  assert (Hof : forall p, In p ps -> exists x, In x (subsets s') /\ In p (members x) /\ collected x = true).
  { intros p Hp. destruct (Hcover p Hp) as (q & Hq & Hr).
    destruct (Hd q Hq) as (x & Hx1 & Hx2 & Hx3). exists x. split; [exact Hx1|]. split; [|exact Hx3].
    apply (Hrel x q p Hx1 Hx2 Hp). apply rst_sym. exact Hr. }
  assert (Hdone : forall x, In x (subsets s') -> collected x = true -> done s' x).
  { intros x Hx Hc. destruct (Hgood x Hx) as [[H _]|[_ H]]; [congruence | exact H]. }
  assert (Hmain : forall p, In p ps -> exists u, containing s' p = Some u /\ u < next s' /\
       (forall q, In q (pile_parts s' u) <-> In q ps /\ related (united ops) p q) /\ NoDup (pile_parts s' u)).
  { intros p Hp. destruct (Hof p Hp) as (x & Hx & Hpx & Hcx). destruct (Hdone x Hx Hcx) as (_ & u & U1 & U2 & U3 & _).
    exists u. split; [apply U1; exact Hpx|]. split; [exact U3|]. split.
    + intros q. rewrite (Permutation_in' eq_refl U2). split.
      * intros Hq. pose proof (Hmem_ps x q Hx Hq) as Hqp. split; [exact Hqp|]. apply (Hrel x p q); assumption.
      * intros [Hq Hr]. apply (Hrel x p q); assumption.
    + apply (Permutation_NoDup (Permutation_sym U2)). apply Hndm. exact Hx. }
  assert (Hshare : forall p q, In p ps -> In q ps -> (containing s' p = containing s' q <-> related (united ops) p q)).
  { intros p q Hp Hq. destruct (Hof p Hp) as (x & Hx & Hpx & Hcx). destruct (Hof q Hq) as (y & Hy & Hqy & Hcy).
    destruct (Hdone x Hx Hcx) as (_ & u & U1 & _). destruct (Hdone y Hy Hcy) as (_ & v & V1 & _).
    rewrite (U1 p Hpx), (V1 q Hqy). split.
    + intros E. assert (x = y).
      { injection E as ->. apply (Hfresh x y p q v); auto. }
      subst y. apply (Hrel x p q); assumption.
    + intros Hr. apply (Hrel x p q Hx Hpx Hq) in Hr. assert (x = y) by (apply (Huniq x y q); assumption). subst y.
      rewrite <- (U1 q Hqy). rewrite <- (V1 q Hqy). reflexivity. }
  split; [|split; [exact Hshare | split]].
  - intros p Hp. destruct (Hmain p Hp) as (u & H1 & _ & H3 & H4). exists u. auto.
  - intros p u Hp Hpu. destruct (Hof p Hp) as (x & Hx & Hpx & Hcx). destruct (Hdone x Hx Hcx) as (_ & w & U1 & U2 & U3 & U4).
    assert (Hu : u < next s0) by (apply (ok_in _ _ Hok p u); assumption).
    rewrite (U1 p Hpx). split.
    + intros E. injection E as ->. destruct U4 as [[U4 _]|(U4 & U5 & U6)]; [lia|].
      intros q. rewrite U5, (Permutation_in' eq_refl U2). split.
      * intros Hq. pose proof (Hmem_ps x q Hx Hq). split; [assumption|]. apply (Hrel x p q); assumption.
      * intros [Hq Hr]. apply (Hrel x p q); assumption.
    + intros Hset.
      assert (Puu : Permutation (pile_parts s0 u) (members x)).
      { apply NoDup_Permutation; [apply (ok_nodup _ _ Hok p u); assumption | apply Hndm; exact Hx |].
        intros q. rewrite Hset. split.
        - intros [Hq Hr]. apply (Hrel x p q); assumption.
        - intros Hq. pose proof (Hmem_ps x q Hx Hq). split; [assumption|]. apply (Hrel x p q); assumption. }
      destruct U4 as [[_ U4]|(_ & _ & U6)].
      * exfalso. apply U4. exists u. split; [exact Hu|]. split; [exists p; auto | exact Puu].
      * rewrite <- (U6 p Hpx). exact Hpu.
  - constructor.
    + intros p u Hp Hpu. destruct (Hmain p Hp) as (v & V1 & V2 & V3 & _). rewrite V1 in Hpu. injection Hpu as <-.
      split; [|exact V2]. apply V3. split; [exact Hp | apply rst_refl].
    + intros p u Hp Hpu. destruct (Hmain p Hp) as (v & V1 & V2 & _ & V4). rewrite V1 in Hpu. injection Hpu as <-. exact V4.
    + intros p q u Hp Hq Hqu Hpu. destruct (Hmain q Hq) as (v & V1 & V2 & V3 & _). rewrite V1 in Hqu. injection Hqu as <-.
      apply V3 in Hpu as [_ Hpu]. apply (Hshare q p Hq Hp) in Hpu. congruence.
Qed.
End Frame.

(** The states reachable at the end of frames, from a state without parts.  Between frames, parts may
    disappear and new ones, which are in no pile-up, may appear. *)
Inductive reachable : list part -> state -> Prop :=
| reachable_init s : reachable [] s
| reachable_frame ps s ps' ops cs s1 s' :
    reachable ps s -> NoDup ps' ->
    (forall p, In p ps' -> In p ps \/ (containing s p = None /\ forall u, ~ In p (pile_parts s u))) ->
    Forall (op_in ps') ops -> (forall p, In p cs -> In p ps') ->
    (forall p, In p ps' -> exists q, In q cs /\ related (united ops) p q) ->
    run ops (prepare ps' s) = Some s1 -> collect_all cs s1 = Some s' ->
    reachable ps' s'.

Lemma ok_next ps s ps' : pile_ups_ok ps s ->
  (forall p, In p ps' -> In p ps \/ (containing s p = None /\ forall u, ~ In p (pile_parts s u))) ->
  pile_ups_ok ps' s.
Proof.
  intros [A B C] H. constructor.
  - intros p u Hp E. destruct (H p Hp) as [Hp'|[Hn _]]; [auto | congruence].
  - intros p u Hp E. destruct (H p Hp) as [Hp'|[Hn _]]; [eauto | congruence].
  - intros p q u Hp Hq E Hi. destruct (H p Hp) as [Hp'|[_ Hn]]; [|exfalso; eapply Hn; exact Hi].
    destruct (H q Hq) as [Hq'|[Hn _]]; [eauto | congruence].
Qed.

Lemma reachable_ok ps s : reachable ps s -> pile_ups_ok ps s.
Proof.
  induction 1 as [s | ps s ps' ops cs s1 s' HR IH Hnd Hnew Hops Hcs Hcov E1 E2].
  - constructor; intros; contradiction.
  - destruct (frame_correct ps' s Hnd (ok_next _ _ _ IH Hnew) ops cs Hops Hcs Hcov)
      as (s1' & s'' & E1' & E2' & _ & _ & _ & Hok).
    rewrite E1 in E1'. injection E1' as <-. rewrite E2 in E2'. injection E2' as <-. exact Hok.
Qed.

Lemma frames_correct ps s ps' ops cs :
  reachable ps s -> NoDup ps' ->
  (forall p, In p ps' -> In p ps \/ (containing s p = None /\ forall u, ~ In p (pile_parts s u))) ->
  Forall (op_in ps') ops -> (forall p, In p cs -> In p ps') ->
  (forall p, In p ps' -> exists q, In q cs /\ related (united ops) p q) ->
  exists s1 s', run ops (prepare ps' s) = Some s1 /\ collect_all cs s1 = Some s' /\
    (forall p, In p ps' -> exists u, containing s' p = Some u /\
       (forall q, In q (pile_parts s' u) <-> In q ps' /\ related (united ops) p q) /\ NoDup (pile_parts s' u)) /\
    (forall p q, In p ps' -> In q ps' -> (containing s' p = containing s' q <-> related (united ops) p q)) /\
    (forall p u, In p ps' -> containing s p = Some u ->
       (containing s' p = Some u <-> forall q, In q (pile_parts s u) <-> In q ps' /\ related (united ops) p q)).
Proof.
  intros HR Hnd Hnew Hops Hcs Hcov.
  destruct (frame_correct ps' s Hnd (ok_next _ _ _ (reachable_ok _ _ HR) Hnew) ops cs Hops Hcs Hcov)
    as (s1 & s' & E1 & E2 & A & B & C & _).
  exists s1, s'. auto.
Qed.
