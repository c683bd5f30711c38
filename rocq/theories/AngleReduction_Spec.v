(** What is expected of the reduction of angles. *)
From Coq Require Import ZArith Reals.
Open Scope R_scope.

(** [r] and [q] are a reduction of [x] modulo π/2, up to an error [eps]; the quadrant is known modulo 4. *)
Definition reduces (eps x r : R) (q : Z) : Prop :=
  (0 <= q <= 3)%Z /\ Rabs r <= PI / 4 + eps /\ exists k : Z, Rabs (x - (r + (IZR q + 4 * IZR k) * (PI / 2))) <= eps.
(** [f] and [k] are the fractional and integer parts of [x] modulo [period], up to an error [eps], with [f] in an interval that starts at [lower]. *)
Definition parts (eps lower period x f : R) (k : Z) : Prop :=
  lower <= f < lower + period /\ Rabs (x - (f + IZR k * period)) <= eps.
