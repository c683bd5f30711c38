From Coq Require Import Bool List Reals Lra Sorted.
From Verif Require Import Chebyshev_Model Chebyshev_Proofs Approximation_Model Approximation_Proofs FirstCollision_Model.
Import ListNotations.
Open Scope R_scope.

(** ** Specification *)
(** One of the pieces vanishes at [t]. *)
Definition vanishes (pieces : list (series * R)) (t : R) : Prop :=
  exists piece, In piece pieces /\ lower_bound (fst piece) <= t <= upper_bound (fst piece) /\ value (fst piece) t = 0.
(** The roots of the interpolant are its zeros in its interval, in increasing order.  This cannot be for all interpolants: the one that is 0 has infinitely many. *)
Definition exact_roots (RealRoots : series -> list R) (s : series) : Prop :=
  StronglySorted Rlt (RealRoots s) /\ forall t, In t (RealRoots s) <-> lower_bound s <= t <= upper_bound s /\ value s t = 0.

(** ** Proofs *)
Section Proofs.
  Variable RealRoots : series -> list R.

  Lemma time_some : forall s t, exact_roots RealRoots s -> collision_time RealRoots s = Some t ->
    lower_bound s <= t <= upper_bound s /\ value s t = 0 /\ forall u, lower_bound s <= u <= upper_bound s -> value s u = 0 -> t <= u.
  Proof.
    intros s t Hx H. unfold collision_time in H. destruct (match MayHaveRealRoots s 0 with Some b => b | None => true end); [| discriminate].
    destruct Hx as [S I]. destruct (RealRoots s) as [| x l]; [discriminate |]. injection H as ->.
    destruct (proj1 (I t) (or_introl eq_refl)) as [B Z]. split; [exact B |]. split; [exact Z |]. intros u Bu Zu.
    destruct (proj2 (I u) (conj Bu Zu)) as [<- | K]; [lra |]. inversion S as [| ? ? _ F]; subst. rewrite Forall_forall in F. specialize (F u K). lra.
  Qed.
  Lemma time_none : forall s, lower_bound s < upper_bound s -> exact_roots RealRoots s -> collision_time RealRoots s = None ->
    forall u, lower_bound s <= u <= upper_bound s -> value s u <> 0.
  Proof.
    intros s Hs Hx H u Bu Zu. unfold collision_time in H. destruct (MayHaveRealRoots s 0) as [[|] |] eqn:M.
    1, 3: destruct Hx as [_ I]; destruct (RealRoots s); [exact (proj2 (I u) (conj Bu Zu)) | discriminate].
    exact (zero_free s 0 (value s) Hs M ltac:(intros; rewrite Rminus_diag_eq by reflexivity; rewrite Rabs_R0; lra) u Bu Zu).
  Qed.
  Lemma tiles_le : forall l a b, tiles l a b -> a <= b.
  Proof. induction l as [| [s e] l IH]; intros a b H; cbn [tiles] in H; [lra |]. destruct H as (_ & L & H). apply IH in H. lra. Qed.
  Lemma tiles_bounds : forall l a b piece, tiles l a b -> In piece l -> a <= lower_bound (fst piece) /\ lower_bound (fst piece) < upper_bound (fst piece) /\ upper_bound (fst piece) <= b.
  Proof.
    induction l as [| [s e] l IH]; intros a b piece H I; [destruct I |]. cbn [tiles] in H. destruct H as (E & L & H). destruct I as [<- | I].
    - apply tiles_le in H. cbn [fst]. lra.
    - destruct (IH _ _ _ H I). lra.
  Qed.

  Lemma first_ok : forall l state b a c, (forall piece, In piece l -> exact_roots RealRoots (fst piece)) -> tiles l a c -> presented (stop RealRoots) state l b ->
    match fold_left (fun time piece => match collision_time RealRoots (fst piece) with Some t => Some t | None => time end) l None with
    | Some t => b = true /\ a <= t <= c /\ vanishes l t /\ forall u, vanishes l u -> t <= u
    | None => b = false /\ forall u, ~ vanishes l u
    end.
  Proof.
    induction l as [| [s e] l IH]; intros state b a c X T P; cbn [tiles presented fold_left fst] in *.
    - split; [exact P |]. intros u (piece & [] & _).
    - destruct T as (E & L & T). pose proof (tiles_le _ _ _ T) as Lc. assert (Hs : lower_bound s < upper_bound s) by lra. pose proof (X (s, e) (or_introl eq_refl)) as Hx. cbn [fst] in Hx.
      destruct P as [[-> Q] | (Q & _ & P)]; unfold stop in Q; destruct (collision_time RealRoots s) as [t |] eqn:C; try discriminate.
      + destruct (time_some s t Hx C) as (B & Z & F). cbn [fold_left]. split; [congruence |]. split; [lra |]. split.
        * exists (s, e). split; [left; reflexivity | split; [exact B | exact Z]].
        * intros u (piece & [<- | []] & Bu & Zu). exact (F u Bu Zu).
      + cbn [fold_left]. split; [congruence |]. intros u (piece & [<- | []] & Bu & Zu). exact (time_none s Hs Hx C u Bu Zu).
      + specialize (IH _ _ _ _ (fun q Iq => X q (or_intror Iq)) T P). pose proof (time_none s Hs Hx C) as N.
        destruct (fold_left _ l None) as [t |].
        * destruct IH as (Hb & B & (piece & I & V) & F). split; [exact Hb |]. split; [lra |]. split; [exists piece; split; [right; exact I | exact V] |].
          intros u (q & [<- | Iq] & Bu & Zu); [elim (N u Bu Zu) |]. apply F. exists q. split; [exact Iq | split; [exact Bu | exact Zu]].
        * destruct IH as (Hb & F). split; [exact Hb |]. intros u (q & [<- | Iq] & Bu & Zu); [exact (N u Bu Zu) |]. apply (F u). exists q. split; [exact Iq | split; [exact Bu | exact Zu]].
  Qed.
End Proofs.
