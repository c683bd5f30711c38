(** What dimensions mean: the factor by which the measure of a quantity is divided when the units of the base quantities are multiplied by some factors. *)
From Coq Require Import ZArith Reals.
From Verif Require Import Dimensions_Model.
Open Scope R_scope.

(** The factors of the eight base units, which are positive. *)
Record units := mkUnits { metre : R; kilogram : R; second : R; ampere : R; kelvin : R; mole : R; candela : R; radian : R }.
Definition positive (u : units) : Prop :=
  0 < metre u /\ 0 < kilogram u /\ 0 < second u /\ 0 < ampere u /\ 0 < kelvin u /\ 0 < mole u /\ 0 < candela u /\ 0 < radian u.
Definition factor (u : units) (d : Dimensions) : R :=
  powerRZ (metre u) (Length d) * powerRZ (kilogram u) (Mass d) * powerRZ (second u) (Time d) * powerRZ (ampere u) (Current d) *
  powerRZ (kelvin u) (Temperature d) * powerRZ (mole u) (Amount d) * powerRZ (candela u) (LuminousIntensity d) * powerRZ (radian u) (Angle d).
Definition factor_of_type (u : units) (t : type_) : R := match t with Double => 1 | Quantity d => factor u d end.
(** A type is canonical if it is double when the quantity has no dimensions. *)
Definition canonical (t : type_) : Prop := match t with Double => True | Quantity d => exists u, positive u /\ factor u d <> 1 end.
