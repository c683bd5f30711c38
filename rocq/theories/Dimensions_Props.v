(** C91: the dimensions of quantities and their serialization. *)
From Coq Require Import ZArith Bool Reals Lra Lia.
From Verif Require Import Dimensions_Model Dimensions_Spec Dimensions_Proofs.
Open Scope R_scope.

(** The operations on dimensions are those on the factors of the changes of units, and dimensions are determined by their factors. *)
Theorem C91_algebra : forall u l r n, positive u ->
  factor u NoDimensions = 1 /\ factor u (DimensionsProduct l r) = factor u l * factor u r /\ factor u (DimensionsQuotient l r) = factor u l / factor u r /\
  factor u (DimensionsExponentiation l n) = powerRZ (factor u l) n.
Proof. exact (fun u l r n P => conj (factor_none u) (conj (factor_product u l r P) (conj (factor_quotient u l r P) (factor_power u l n P)))). Qed.
Print Assumptions C91_algebra.
Theorem C91_faithful : forall a b, (forall u, positive u -> factor u a = factor u b) -> a = b.
Proof. exact factor_faithful. Qed.
Print Assumptions C91_faithful.
(** The root is defined exactly if there is one, and it is the only one. *)
Theorem C91_root : forall d n r, DimensionsNthRoot d n = Some r <-> (n <> 0%Z /\ DimensionsExponentiation r n = d).
Proof. exact root_power. Qed.
Print Assumptions C91_root.
(** The types of the products, quotients and roots have the right dimensions, and are double exactly when they should. *)
Theorem C91_types : forall u l r t n, positive u -> canonical l -> canonical r ->
  (Product l r = Some t -> factor_of_type u t = factor_of_type u l * factor_of_type u r /\ canonical t) /\
  (factor_of_type u (Quotient l r) = factor_of_type u l / factor_of_type u r /\ canonical (Quotient l r)) /\
  (NthRoot l n = Some t -> powerRZ (factor_of_type u t) n = factor_of_type u l /\ canonical t).
Proof. exact (fun u l r t n P L R => conj (product_type u l r t P L R) (conj (quotient_type u l r P L R) (root_type u l n t P))). Qed.
Print Assumptions C91_types.
(** The product is only undefined on two doubles. *)
Theorem C91_product_defined : forall l r, Product l r = None <-> (l = Double /\ r = Double).
Proof. intros [|l] [|r]; cbn; split; try discriminate; try tauto; intros [A B]; discriminate. Qed.
Print Assumptions C91_product_defined.
(** The representation is that of an std::int64_t, in 40 bits, and determines the dimensions. *)
Theorem C91_representation : forall a b, (0 <= representation a < 2 ^ 40)%Z /\
  (DimensionsAreSerializable a = true -> DimensionsAreSerializable b = true -> representation a = representation b -> a = b).
Proof. exact (fun a b => conj (representation_bound a) (representation_injective a b)). Qed.
Print Assumptions C91_representation.
(** Each exponent in -24 .. 7 may be serialized, with the others in that range. *)
Theorem C91_serializable : forall d, DimensionsAreSerializable d = true <->
  (-24 <= Length d <= 7 /\ -24 <= Mass d <= 7 /\ -24 <= Time d <= 7 /\ -24 <= Current d <= 7 /\
   -24 <= Temperature d <= 7 /\ -24 <= Amount d <= 7 /\ -24 <= LuminousIntensity d <= 7 /\ -24 <= Angle d <= 7)%Z.
Proof. intros d. unfold DimensionsAreSerializable. rewrite !andb_true_iff, !serializable_range. tauto. Qed.
Print Assumptions C91_serializable.
(** A quantity that is read with the dimensions with which it was written is the same, it cannot be read with others. *)
Theorem C91_read_written : forall M d e (m : M) w, WriteToMessage d m = Ok w -> DimensionsAreSerializable e = true ->
  (d = e -> ReadFromMessage e w = Ok m) /\ (d <> e -> ReadFromMessage e w = CheckFailed).
Proof. exact read_written. Qed.
Print Assumptions C91_read_written.
(** The magnitude of a force; the comment of quantities/dimensions_body.hpp:40-45; exponents out of the range have the representation of others. *)
Definition force := mkDimensions 1 1 (-2) 0 0 0 0 0.
Example C91_example :
  representation force = 30753%Z /\ WriteToMessage force 3%nat = Ok (30753%Z, 3%nat) /\ ReadFromMessage force (30753%Z, 3%nat) = Ok 3%nat /\
  ReadFromMessage (mkDimensions 1 1 (-1) 0 0 0 0 0) (30753%Z, 3%nat) = CheckFailed /\
  (Representation (-16) 0 = 16 /\ Representation (-1) 0 = 31 /\ Representation 7 0 = 7 /\ Representation (-24) 0 = 8 /\ Representation (-17) 0 = 15)%Z /\
  Representation 8 0 = Representation (-24) 0 /\ DimensionsAreSerializable (mkDimensions 8 0 0 0 0 0 0 0) = false /\
  Product (Quantity force) (Quantity (mkDimensions (-1) (-1) 2 0 0 0 0 0)) = Some Double /\
  Quotient (Quantity force) (Quantity (mkDimensions 0 1 0 0 0 0 0 0)) = Quantity (mkDimensions 1 0 (-2) 0 0 0 0 0) /\
  DimensionsNthRoot (mkDimensions 4 0 (-2) 0 0 0 0 0) 2 = Some (mkDimensions 2 0 (-1) 0 0 0 0 0) /\ DimensionsNthRoot force 2 = None.
Proof. repeat split; reflexivity. Qed.
