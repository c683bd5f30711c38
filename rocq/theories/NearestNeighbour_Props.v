From Coq Require Import Bool List Reals Lra Lia Permutation.
From Verif Require Import NearestNeighbour_Model NearestNeighbour_Proofs.
Import ListNotations.
Open Scope R_scope.

(** After a construction and any additions, a search returns a value at the smallest distance among those that the filter admits, and nothing if there is none. *)
Theorem C28_nearest lib m initial added : lib_ok lib -> (1 <= m)%nat ->
  exists s, run lib m initial added = Some s /\ forall q filter, exists r, FindNearestNeighbour s q filter = Some r /\ nearest (initial ++ added) filter q r.
Proof. exact (nearest_ok lib m initial added). Qed.
Print Assumptions C28_nearest.

(** Every value is in exactly one cell, and the cells have between one value and the maximum. *)
Theorem C28_cells lib m initial added : lib_ok lib -> (1 <= m)%nat ->
  exists s, run lib m initial added = Some s /\ values s = initial ++ added /\
    match root s with
    | None => initial ++ added = []
    | Some t => Permutation (seq 0 (length (initial ++ added))) (concat (cells t)) /\ Forall (fun c => c <> [] /\ (length c <= m)%nat) (cells t)
    end.
Proof. exact (tree_ok lib m initial added). Qed.
Print Assumptions C28_cells.

(** The assumptions on the library can be satisfied. *)
Theorem C28_library : lib_ok sorted_library.
Proof. exact sorted_library_ok. Qed.
Print Assumptions C28_library.

(** The constructor accepts a maximum of 0 values per cell, and then the recursion does not end. *)
Theorem C28_empty_cells lib d : lib_ok lib -> forall fuel l, l <> [] -> BuildTree fuel lib 0 d l = None.
Proof. exact (build_0 lib d). Qed.
Print Assumptions C28_empty_cells.

(** Two values at construction and one added, with one value per cell: 12 is nearest to 10, and to 20 if 10 is not admitted; nothing is found if nothing is admitted. *)
Definition at_x (p : nat) (a : R) : value := Value p (Vector a 0 0).
Example C28_example : exists s, run sorted_library 1 [at_x 5 0; at_x 6 20] [at_x 7 10] = Some s /\
  FindNearestNeighbour s (Vector 12 1 0) (fun _ => true) = Some (Some 7%nat) /\
  FindNearestNeighbour s (Vector 12 1 0) (fun p => negb (Nat.eqb p 7)) = Some (Some 6%nat) /\
  FindNearestNeighbour s (Vector 12 1 0) (fun _ => false) = Some None.
Proof.
  destruct (C28_nearest sorted_library 1 [at_x 5 0; at_x 6 20] [at_x 7 10] sorted_library_ok ltac:(lia)) as (s & R & H).
  exists s. split; [exact R|]. cbn [app] in H.
  split; [|split].
  - destruct (H (Vector 12 1 0) (fun _ => true)) as ([p|] & -> & N); cbn [nearest] in N.
    + destruct N as (v & V & <- & _ & N). specialize (N (at_x 7 10) ltac:(cbn; auto) eq_refl).
      destruct V as [<-|[<-|[<-|[]]]]; [exfalso|exfalso|reflexivity]; unfold distance2, at_x, Rsqr in N; cbn in N; lra.
    + specialize (N (at_x 7 10) ltac:(cbn; auto)). discriminate.
  - destruct (H (Vector 12 1 0) (fun p => negb (Nat.eqb p 7))) as ([p|] & -> & N); cbn [nearest] in N.
    + destruct N as (v & V & <- & F & N). specialize (N (at_x 6 20) ltac:(cbn; auto) eq_refl).
      destruct V as [<-|[<-|[<-|[]]]]; [exfalso|reflexivity|discriminate F]; unfold distance2, at_x, Rsqr in N; cbn in N; lra.
    + specialize (N (at_x 6 20) ltac:(cbn; auto)). discriminate.
  - destruct (H (Vector 12 1 0) (fun _ => false)) as ([p|] & -> & N); cbn [nearest] in N; [|reflexivity].
    destruct N as (_ & _ & _ & F & _). discriminate.
Qed.
