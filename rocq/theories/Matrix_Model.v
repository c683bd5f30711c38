(* Dense linear algebra: numerics/matrix_computations_body.hpp (the functions
   which only use the four operations) and geometry/r3x3_matrix_body.hpp.

   The scalars are exact rational numbers (canonical fractions): the finite
   doubles are rational, the elements of the type cpp_rational too, and the
   rounding of the operations on doubles is not modelled.  The units are not
   modelled.  A division by zero, which for doubles produces infinities or NaNs,
   is a distinct outcome, and so are a failed CHECK and an access out of the
   bounds of an array.

   A matrix is a function of two indices, and a vector a function of one index;
   the dimensions are passed separately.  The contents of the storage declared
   as `uninitialized` are parameters, named [junk...], about which nothing is
   known. *)
From Coq Require Import ZArith QArith Qcanon Qcabs List Bool Arith.
Local Open Scope nat_scope.

Inductive outcome (A : Type) : Type :=
| Ok (a : A)
| DivisionByZero
| CheckFailure
| OutOfBounds.
Arguments Ok {A} a.
Arguments DivisionByZero {A}.
Arguments CheckFailure {A}.
Arguments OutOfBounds {A}.

Definition bind {A B} (o : outcome A) (f : A -> outcome B) : outcome B :=
  match o with
  | Ok a => f a
  | DivisionByZero => DivisionByZero
  | CheckFailure => CheckFailure
  | OutOfBounds => OutOfBounds
  end.

Definition vector := nat -> Qc.
Definition matrix := nat -> nat -> Qc.

(* v[i] = y *)
Definition vset (v : vector) (i : nat) (y : Qc) : vector :=
  fun k => if k =? i then y else v k.
(* M(i, j) = y *)
Definition mset (M : matrix) (i j : nat) (y : Qc) : matrix :=
  fun k l => if (k =? i) && (l =? j) then y else M k l.

(* std::swap(v[k], v[r]) *)
Definition vswap (v : vector) (k r : nat) : vector :=
  fun i => if i =? k then v r else if i =? r then v k else v i.
(* Exchange of the rows k and r, in the columns below [c]. *)
Definition swap_rows (c : nat) (M : matrix) (k r : nat) : matrix :=
  fun i j =>
    if j <? c
    then if i =? k then M r j else if i =? r then M k j else M i j
    else M i j.

(* for (i = a; i < a + count; ++i) { s = body(i, s); } *)
Fixpoint loop {S} (a count : nat) (body : nat -> S -> S) (s : S) : S :=
  match count with
  | O => s
  | S count' => loop (Datatypes.S a) count' body (body a s)
  end.
(* The same, where the body may fail. *)
Fixpoint loopM {S} (a count : nat) (body : nat -> S -> outcome S) (s : S)
  : outcome S :=
  match count with
  | O => Ok s
  | S count' => bind (body a s) (loopM (Datatypes.S a) count' body)
  end.
(* for (i = count - 1; i >= 0; --i) { s = body(i, s); } *)
Fixpoint loop_downM {S} (count : nat) (body : nat -> S -> outcome S) (s : S)
  : outcome S :=
  match count with
  | O => Ok s
  | S count' => bind (body count' s) (loop_downM count' body)
  end.

Definition divide (a b : Qc) : outcome Qc :=
  if Qc_eq_dec b 0%Qc then DivisionByZero else Ok (a / b)%Qc.

(* |a| >= b *)
Definition abs_geb (a b : Qc) : bool :=
  if Qclt_le_dec (Qcabs a) b then false else true.

(* numerics/matrix_computations_body.hpp:709-726, BackSubstitution. *)
Definition BackSubstitution (n : nat) (U : matrix) (b junk : vector)
  : outcome vector :=
  match n with
  | O => OutOfBounds
  | S m =>
    bind (divide (b m) (U m m)) (fun xm =>
    loop_downM m (fun i x =>
      let s := loop (S i) (m - i) (fun j s => (s - U i j * x j)%Qc) (b i) in
      bind (divide s (U i i)) (fun xi => Ok (vset x i xi)))
      (vset junk m xm))
  end.

(* numerics/matrix_computations_body.hpp:728-746, ForwardSubstitution. *)
Definition ForwardSubstitution (n : nat) (L : matrix) (b junk : vector)
  : outcome vector :=
  match n with
  | O => OutOfBounds
  | S m =>
    bind (divide (b 0) (L 0 0)) (fun x0 =>
    loopM 1 m (fun i x =>
      let s := loop 0 i (fun j s => (s - L i j * x j)%Qc) (b i) in
      bind (divide s (L i i)) (fun xi => Ok (vset x i xi)))
      (vset junk 0 x0))
  end.

(* The partial pivoting of the two functions Solve,
   numerics/matrix_computations_body.hpp:1072-1080 and
   geometry/r3x3_matrix_body.hpp:184-191: the row and the maximum.  The row is
   absent (-1) as long as no element was found. *)
Definition pivot (n k : nat) (A : matrix) : option nat * Qc :=
  loop k (n - k) (fun i '(r, max) =>
    if abs_geb (A i k) max then (Some i, Qcabs (A i k)) else (r, max))
    (None, 0%Qc).

Record lu := mkLU { lu_A : matrix; lu_L : matrix; lu_U : matrix; lu_b : vector }.

(* The computation of the row k of U, matrix_computations_body.hpp:1098-1104,
   r3x3_matrix_body.hpp:199-205. *)
Definition U_row (n k : nat) (A L U : matrix) : matrix :=
  loop k (n - k) (fun j U =>
    mset U k j (loop 0 k (fun i s => (s - L k i * U i j)%Qc) (A k j))) U.

(* The computation of the column k of L, matrix_computations_body.hpp:1105-1112,
   r3x3_matrix_body.hpp:206-213. *)
Definition L_column (n k : nat) (A L U : matrix) : outcome matrix :=
  bind (loopM (S k) (n - S k) (fun i L =>
    let s := loop 0 k (fun j s => (s - L i j * U j k)%Qc) (A i k) in
    bind (divide s (U k k)) (fun lik => Ok (mset L i k lik))) L)
  (fun L => Ok (mset L k k 1%Qc)).

(* The body of the loop on k, matrix_computations_body.hpp:1071-1113.  The type
   of L only stores the elements below the diagonal, and the loop exchanges
   those of the columns below k.  The LOG_IF is not modelled. *)
Definition solve_step (n k : nat) (s : lu) : outcome lu :=
  match fst (pivot n k (lu_A s)) with
  | None => CheckFailure
  | Some r =>
    let A := swap_rows n (lu_A s) k r in
    let L := swap_rows k (lu_L s) k r in
    let b := vswap (lu_b s) k r in
    let U := U_row n k A L (lu_U s) in
    bind (L_column n k A L U) (fun L => Ok (mkLU A L U b))
  end.

(* numerics/matrix_computations_body.hpp:1058-1123, Solve, for a square
   matrix. *)
Definition Solve (n : nat) (A : matrix) (b : vector)
    (junkL junkU : matrix) (junky junkx : vector) : outcome vector :=
  bind (loopM 0 n (solve_step n) (mkLU A junkL junkU b)) (fun s =>
  bind (ForwardSubstitution n (lu_L s) (lu_b s) junky) (fun y =>
  BackSubstitution n (lu_U s) y junkx)).

(* The body of the loop on k of R3x3Matrix::Solve,
   geometry/r3x3_matrix_body.hpp:182-214.  It exchanges entire rows of L, and
   checks the pivot. *)
Definition r3_solve_step (k : nat) (s : lu) : outcome lu :=
  match fst (pivot 3 k (lu_A s)) with
  | None => CheckFailure
  | Some r =>
    let A := swap_rows 3 (lu_A s) k r in
    let L := swap_rows 3 (lu_L s) k r in
    let b := vswap (lu_b s) k r in
    if Qc_eq_dec (A k k) 0%Qc then CheckFailure
    else
      let U := U_row 3 k A L (lu_U s) in
      bind (L_column 3 k A L U) (fun L => Ok (mkLU A L U b))
  end.

(* geometry/r3x3_matrix_body.hpp:218-227: there is no division by the elements
   of the diagonal, which are 1. *)
Definition r3_forward (L : matrix) (b junk : vector) : vector :=
  loop 1 2 (fun i y =>
    vset y i (loop 0 i (fun j s => (s - L i j * y j)%Qc) (b i)))
    (vset junk 0 (b 0)).

(* geometry/r3x3_matrix_body.hpp:168-240, R3x3Matrix::Solve.  The loop of the
   lines 229-238 is that of BackSubstitution. *)
Definition R3x3_Solve (A : matrix) (b : vector)
    (junkL junkU : matrix) (junky junkx : vector) : outcome vector :=
  bind (loopM 0 3 r3_solve_step (mkLU A junkL junkU b)) (fun s =>
  BackSubstitution 3 (lu_U s) (r3_forward (lu_L s) (lu_b s) junky) junkx).
