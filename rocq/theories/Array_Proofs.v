From Coq Require Import ZArith List Lia Bool.
From Verif Require Import Array_Model.
Import ListNotations.
Open Scope Z_scope.
Ltac Zify.zify_post_hook ::= Z.div_mod_to_equations.

Lemma representation_1 l : Forall (fun x => 0 <= x < 256) l -> representation 1 l = l.
Proof.
  unfold representation. induction 1 as [|x l Hx Hl IH]; [reflexivity|].
  change (flat_map (bytes_of 1) (x :: l)) with (x mod 256 :: flat_map (bytes_of 1) l). rewrite IH. f_equal. lia.
Qed.

Lemma array_eq_bytes l r : Forall (fun x => 0 <= x < 256) l -> Forall (fun x => 0 <= x < 256) r ->
  array_eq 1 1 l r = true <-> l = r.
Proof.
  intros Hl Hr. unfold array_eq. rewrite !representation_1 by assumption.
  destruct (Nat.eqb_spec (length l) (length r)) as [E|E].
  - unfold memcmp_eq. rewrite firstn_all. rewrite <- E, firstn_all.
    destruct (list_eq_dec Z.eq_dec l r); split; congruence.
  - split; [discriminate|]. intros ->. congruence.
Qed.

(** For any element size, equality of the elements implies equality of the arrays; the converse needs bytes. *)
Lemma array_eq_complete w l : array_eq w w l l = true.
Proof.
  unfold array_eq. rewrite Nat.eqb_refl. unfold memcmp_eq.
  destruct (list_eq_dec _ _ _); congruence.
Qed.

Lemma array_eq_wide_wrong : forall w, (2 <= w)%nat ->
  exists l r, Forall (fun x => 0 <= x < 256 ^ Z.of_nat w) l /\ Forall (fun x => 0 <= x < 256 ^ Z.of_nat w) r /\
    l <> r /\ array_eq w w l r = true.
Proof.
  intros w Hw. exists [0; 0], [0; 1]. 
  assert (0 < 256 ^ Z.of_nat w) by (apply Z.pow_pos_nonneg; lia).
  assert (256 ^ 1 < 256 ^ Z.of_nat w) by (apply Z.pow_lt_mono_r; lia).
  repeat split; try (repeat constructor; lia); try congruence.
  unfold array_eq. cbn [length Nat.eqb].
  unfold memcmp_eq. destruct w as [|[|w]]; [lia|lia|].
  unfold representation. cbn [flat_map bytes_of app firstn].
  destruct (list_eq_dec _ _ _); congruence.
Qed.
