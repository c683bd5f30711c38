(** Model of quantities/dimensions_body.hpp, quantities/generators_body.hpp and of the serialization of quantities/quantities_body.hpp: the types are values.
    The exponents are integers: the overflow of an std::int64_t at compile time is not modelled. *)
From Coq Require Import ZArith Bool.
Open Scope Z_scope.

(** quantities/dimensions_body.hpp:26-47 *)
Definition min_exponent : Z := -24.
Definition max_exponent : Z := 7.
Definition exponent_mask : Z := 31.
Definition exponent_bits : Z := 5.
Definition IsSerializable (exponent : Z) : bool := (exponent >=? min_exponent) && (exponent <=? max_exponent).
Definition Representation (exponent position : Z) : Z := Z.shiftl (Z.land exponent exponent_mask) (position * exponent_bits).

(** quantities/dimensions_body.hpp:49-76 *)
Record Dimensions := mkDimensions {
  Length : Z; Mass : Z; Time : Z; Current : Z; Temperature : Z; Amount : Z; LuminousIntensity : Z; Angle : Z
}.
Definition representation (d : Dimensions) : Z :=
  Z.lor (Z.lor (Z.lor (Z.lor (Z.lor (Z.lor (Z.lor
    (Representation (Length d) 0) (Representation (Mass d) 1)) (Representation (Time d) 2)) (Representation (Current d) 3))
    (Representation (Temperature d) 4)) (Representation (Amount d) 5)) (Representation (LuminousIntensity d) 6)) (Representation (Angle d) 7).
(** quantities/dimensions.hpp:22 *)
Definition NoDimensions : Dimensions := mkDimensions 0 0 0 0 0 0 0 0.

(** quantities/dimensions_body.hpp:78-97 *)
Definition DimensionsAreSerializable (d : Dimensions) : bool :=
  IsSerializable (Length d) && IsSerializable (Mass d) && IsSerializable (Time d) && IsSerializable (Current d) &&
  IsSerializable (Temperature d) && IsSerializable (Amount d) && IsSerializable (LuminousIntensity d) && IsSerializable (Angle d).

(** quantities/dimensions_body.hpp:99-109 *)
Definition DimensionsExponentiation (d : Dimensions) (n : Z) : Dimensions :=
  mkDimensions (Length d * n) (Mass d * n) (Time d * n) (Current d * n) (Temperature d * n) (Amount d * n) (LuminousIntensity d * n) (Angle d * n).
(** quantities/dimensions_body.hpp:111-131.  [None] is a compilation error: the assertion, or a division by 0. *)
Definition DimensionsNthRoot (d : Dimensions) (n : Z) : option Dimensions :=
  if n =? 0 then None
  else if (Z.rem (Length d) n =? 0) && (Z.rem (Mass d) n =? 0) && (Z.rem (Time d) n =? 0) && (Z.rem (Current d) n =? 0) &&
          (Z.rem (Temperature d) n =? 0) && (Z.rem (Amount d) n =? 0) && (Z.rem (LuminousIntensity d) n =? 0) && (Z.rem (Angle d) n =? 0)
  then Some (mkDimensions (Z.quot (Length d) n) (Z.quot (Mass d) n) (Z.quot (Time d) n) (Z.quot (Current d) n)
                          (Z.quot (Temperature d) n) (Z.quot (Amount d) n) (Z.quot (LuminousIntensity d) n) (Z.quot (Angle d) n))
  else None.
(** quantities/dimensions_body.hpp:133-144 *)
Definition DimensionsProduct (l r : Dimensions) : Dimensions :=
  mkDimensions (Length l + Length r) (Mass l + Mass r) (Time l + Time r) (Current l + Current r) (Temperature l + Temperature r)
               (Amount l + Amount r) (LuminousIntensity l + LuminousIntensity r) (Angle l + Angle r).
(** quantities/dimensions_body.hpp:146-157 *)
Definition DimensionsQuotient (l r : Dimensions) : Dimensions :=
  mkDimensions (Length l - Length r) (Mass l - Mass r) (Time l - Time r) (Current l - Current r) (Temperature l - Temperature r)
               (Amount l - Amount r) (LuminousIntensity l - LuminousIntensity r) (Angle l - Angle r).

(** The types of quantities: double and Quantity<D>. *)
Inductive type_ := Double | Quantity (d : Dimensions).
(** Whether D is NoDimensions, in the choice of a specialization. *)
Definition is_no_dimensions (d : Dimensions) : bool :=
  (Length d =? 0) && (Mass d =? 0) && (Time d =? 0) && (Current d =? 0) && (Temperature d =? 0) && (Amount d =? 0) && (LuminousIntensity d =? 0) && (Angle d =? 0).
(** quantities/generators_body.hpp:21-29 *)
Definition Collapse (q : type_) : type_ := match q with Quantity d => if is_no_dimensions d then Double else q | Double => Double end.
(** quantities/generators_body.hpp:31-45; [None] is a compilation error. *)
Definition NthRoot (q : type_) (n : Z) : option type_ :=
  match q with
  | Double => Some Double
  | Quantity d => match DimensionsNthRoot d n with Some r => Some (Collapse (Quantity r)) | None => None end
  end.
(** quantities/generators_body.hpp:47-61.  For two doubles the last two specializations are ambiguous, which is a compilation error. *)
Definition Product (left right : type_) : option type_ :=
  match left, right with
  | Quantity l, Quantity r => Some (Collapse (Quantity (DimensionsProduct l r)))
  | Quantity l, Double => Some left
  | Double, Quantity r => Some right
  | Double, Double => None
  end.
(** quantities/generators_body.hpp:63-78 *)
Definition Quotient (left right : type_) : type_ :=
  match left, right with
  | Quantity l, Quantity r => Collapse (Quantity (DimensionsQuotient l r))
  | _, Double => left
  | Double, Quantity r => Collapse (Quantity (DimensionsQuotient NoDimensions r))
  end.

(** quantities/quantities_body.hpp:70-86, with any type of magnitudes.  A message has the dimensions and the magnitude.  [NotCompiled] is the failure of
    the assertion, [CheckFailed] that of the check on the dimensions. *)
Inductive outcome (A : Type) := Ok (a : A) | NotCompiled | CheckFailed.
Arguments Ok {A}. Arguments NotCompiled {A}. Arguments CheckFailed {A}.
Definition WriteToMessage {M} (d : Dimensions) (magnitude : M) : outcome (Z * M) :=
  if DimensionsAreSerializable d then Ok (representation d, magnitude) else NotCompiled.
Definition ReadFromMessage {M} (d : Dimensions) (message : Z * M) : outcome M :=
  if DimensionsAreSerializable d then if representation d =? fst message then Ok (snd message) else CheckFailed else NotCompiled.
