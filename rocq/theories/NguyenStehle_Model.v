(* The reduction of lattices of Nguyễn and Stehlé, numerics/lattices_body.hpp.  The
   elements of the matrix b and of its Gram matrix G are of type cpp_int, modelled
   by Z.  The matrices r and μ and the vector s are made of floating-point numbers:
   the model is parameterized by the floating-point arithmetic, of which there are
   two instances below.  A matrix is a list of rows, and the number of rows and
   columns are passed separately. *)
From Coq Require Import ZArith QArith Qcanon Qcabs List Bool Arith.
From Coq Require Import Floats.SpecFloat.
From Verif Require Import Matrix_Model.
Import ListNotations.
Local Open Scope nat_scope.

(* ------------------------------------------------------------- storage *)

Definition grid (T : Type) := list (list T).

(* Accesses to a vector and a matrix.  The model of a write extends the list as
   needed; the accesses of the code are within bounds, except those of [Gram_checked]
   below. *)
Fixpoint lset {T} (d : T) (l : list T) (n : nat) (x : T) : list T :=
  match n, l with
  | O, [] => [x]
  | O, _ :: t => x :: t
  | S n', [] => d :: lset d [] n' x
  | S n', h :: t => h :: lset d t n' x
  end.
Definition gget {T} (d : T) (g : grid T) (i j : nat) : T := nth j (nth i g []) d.
Definition gset {T} (d : T) (g : grid T) (i j : nat) (x : T) : grid T :=
  lset [] g i (lset d (nth i g []) j x).

(* A loop whose index goes from count - 1 down to 0. *)
Fixpoint loop_down {S} (count : nat) (body : nat -> S -> S) (s : S) : S :=
  match count with
  | O => s
  | S count' => loop_down count' body (body count' s)
  end.

Definition zget := gget 0%Z.
Definition zset := gset 0%Z.

(* -------------------------------------------------- floating point *)

Record float_ops := mkFloat {
  F : Type;
  f_of_Z : Z -> F;                  (* The conversion of a cpp_int or int64_t. *)
  f_sub : F -> F -> F;
  f_mul : F -> F -> F;
  f_div : F -> F -> F;
  f_abs : F -> F;
  f_gt : F -> F -> bool;
  f_ge : F -> F -> bool;
  f_llround : F -> Z;
  f_eta : F;                        (* (0.55 + 0.5) / 2 *)
  f_delta : F                       (* (0.75 + 1) / 2 *)
}.

(* The outcome of a computation: a result, a failed CHECK, or more than the given
   number of iterations. *)
Inductive result (A : Type) :=
| Done (a : A)
| CheckFailed
| Unfinished.
Arguments Done {A}.
Arguments CheckFailed {A}.
Arguments Unfinished {A}.

(* ------------------------------------------------------------- Gram *)

(* numerics/matrix_views_body.hpp:229-238, the product of a transposed column and of
   a column. *)
Definition zdot (n : nat) (b : grid Z) (i j : nat) : Z :=
  loop 0 n (fun k s => (s + zget b k i * zget b k j)%Z) 0%Z.

(* numerics/lattices_body.hpp:240-263, Gram.  [junk] are the contents of the
   uninitialized storage. *)
Definition Gram (n d : nat) (L : grid Z) (junk : grid Z) : grid Z :=
  loop 0 d (fun i g =>
    loop 0 (S i) (fun j g =>
      let bibj := zdot n L i j in
      zset (zset g i j bibj) j i bibj) g) junk.

(* The same for a matrix of type UnboundedMatrix: numerics/lattices_body.hpp:127-131
   allocates a matrix of the given [size]; None is an access that is not within
   bounds. *)
Definition zset_checked (size : nat) (g : grid Z) (i j : nat) (x : Z) : option (grid Z) :=
  if (i <? size) && (j <? size) then Some (zset g i j x) else None.
Definition Gram_checked (size n d : nat) (L : grid Z) (junk : grid Z) : option (grid Z) :=
  loop 0 d (fun i g =>
    loop 0 (S i) (fun j g =>
      let bibj := zdot n L i j in
      match g with
      | None => None
      | Some g =>
        match zset_checked size g i j bibj with
        | None => None
        | Some g => zset_checked size g j i bibj
        end
      end) g) (Some junk).
Definition Gram_unbounded (n d : nat) (L : grid Z) (junk : grid Z) : option (grid Z) :=
  Gram_checked n n d L junk.

(* ----------------------------------------------------------- Insert *)

(* numerics/lattices_body.hpp:281-287 and 289-295, the rotation of the elements of
   the row i of a matrix: the loop on j goes from [from] down to [to] + 1. *)
Definition rotate_row (from to i : nat) (g : grid Z) : grid Z :=
  let x := zget g i from in
  let g := loop_down (from - to) (fun j g =>
             zset g i (to + S j) (zget g i (to + j))) g in
  zset g i to x.
(* numerics/lattices_body.hpp:296-302, the rotation of the column j. *)
Definition rotate_column (from to j : nat) (g : grid Z) : grid Z :=
  let x := zget g from j in
  let g := loop_down (from - to) (fun i g =>
             zset g (to + S i) j (zget g (to + i) j)) g in
  zset g to j x.

(* numerics/lattices_body.hpp:269-319, Insert; [n] rows and [d] columns. *)
Definition Insert (from to n d : nat) (b G : grid Z) : grid Z * grid Z :=
  (loop 0 n (rotate_row from to) b,
   loop 0 d (rotate_column from to) (loop 0 d (rotate_row from to) G)).

Section Reduction.

Variable ops : float_ops.

Definition fget : grid (F ops) -> nat -> nat -> F ops := gget (f_of_Z ops 0).
Definition fset : grid (F ops) -> nat -> nat -> F ops -> grid (F ops) :=
  gset (f_of_Z ops 0).
Definition vget (s : list (F ops)) (i : nat) : F ops := nth i s (f_of_Z ops 0).
Definition vset : list (F ops) -> nat -> F ops -> list (F ops) := lset (f_of_Z ops 0).

(* The matrices r and μ, and the vector s. *)
Record factors := mkFactors {
  fr : grid (F ops);
  fmu : grid (F ops);
  fs : list (F ops)
}.

(* numerics/lattices_body.hpp:321-352, CholeskyFactorization: the body of the loop
   on j. *)
Definition cholesky_step (k : nat) (G : grid Z) (j : nat) (f : factors) : factors :=
  let r := fset (fr f) j k (f_of_Z ops (zget G k j)) in
  let r := loop 0 j (fun l r =>
             fset r j k (f_sub ops (fget r j k)
                           (f_mul ops (fget (fmu f) l j) (fget r l k)))) r in
  let mu := fset (fmu f) j k (f_div ops (fget r j k) (fget r j j)) in
  let s := vset (fs f) 0 (f_of_Z ops (zget G k k)) in
  let s := loop 1 k (fun l s =>
             vset s l (f_sub ops (vget s (l - 1))
                         (f_mul ops (fget mu (l - 1) k) (fget r (l - 1) k)))) s in
  mkFactors (fset r k k (vget s k)) mu s.
Definition CholeskyFactorization (k : nat) (G : grid Z) (f : factors) : factors :=
  loop 0 k (cholesky_step k G) f.

(* numerics/lattices_body.hpp:38-41.  The number of digits of a double is 53. *)
Definition largest_convertible_integer : Z := (2 * 2 ^ 53)%Z.

(* numerics/lattices_body.hpp:395-403, the saturating conversion. *)
Definition saturating_round (x : F ops) : Z :=
  if f_gt ops x (f_of_Z ops largest_convertible_integer)
  then largest_convertible_integer
  else if f_gt ops (f_of_Z ops (- largest_convertible_integer)) x
  then (- largest_convertible_integer)%Z
  else f_llround ops x.

(* numerics/lattices_body.hpp:389-409: X, whether we are making progress, and μ. *)
Definition compute_X (k : nat) (mu : grid (F ops)) : list Z * bool * grid (F ops) :=
  loop_down k (fun i '(X, making_progress, mu) =>
    let x := saturating_round (fget mu i k) in
    (lset 0%Z X i x,
     making_progress || negb (x =? 0)%Z,
     loop 0 i (fun j mu =>
       fset mu j k (f_sub ops (fget mu j k) (f_mul ops (f_of_Z ops x) (fget mu j i)))) mu))
    (repeat 0%Z k, false, mu).

(* numerics/lattices_body.hpp:411-425: b_κ -= X[i] * bᵢ. *)
Definition subtract_row (X : list Z) (k i row : nat) (b : grid Z) : grid Z :=
  zset b row k (zget b row k - nth i X 0 * zget b row i)%Z.
Definition update_b (n k : nat) (X : list Z) (b : grid Z) : grid Z :=
  loop 0 k (fun i b => loop 0 n (subtract_row X k i) b) b.

(* numerics/lattices_body.hpp:433-444: the square of the new b_κ. *)
Definition update_diagonal (k : nat) (X : list Z) (G : grid Z) : grid Z :=
  (let x j := nth j X 0 in
   let '(squares, products, cross) :=
     loop 0 k (fun j '(squares, products, cross) =>
       (squares + x j * (x j * zget G j j),
        products + x j * zget G j k,
        loop 0 j (fun i cross => cross + x i * (x j * zget G i j)) cross)) (0, 0, 0) in
   zset G k k (zget G k k + (squares - 2 * products + 2 * cross)))%Z.
(* numerics/lattices_body.hpp:446-463: the other products. *)
Definition update_G (d k : nat) (X : list Z) (G : grid Z) : grid Z :=
  loop 0 d (fun i G =>
    if i =? k then G
    else
      let sum := loop 0 k (fun j s => (s + nth j X 0 * zget G i j)%Z) 0%Z in
      let G := zset G i k (zget G i k - sum)%Z in
      zset G k i (zget G i k)) (update_diagonal k X G).

(* numerics/lattices_body.hpp:376-386, step 3. *)
Definition size_reduced (k : nat) (mu : grid (F ops)) : bool :=
  forallb (fun j => negb (f_gt ops (f_abs ops (fget mu j k)) (f_eta ops))) (seq 0 k).

(* numerics/lattices_body.hpp:354-465, SizeReduce; [n] rows and [d] columns. *)
Fixpoint SizeReduce (fuel n d k : nat) (b G : grid Z) (f : factors)
  : result (grid Z * grid Z * factors) :=
  match fuel with
  | O => Unfinished
  | S fuel' =>
    let f := CholeskyFactorization k G f in
    if size_reduced k (fmu f) then Done (b, G, f)
    else
      let '(X, making_progress, mu) := compute_X k (fmu f) in
      if making_progress then
        SizeReduce fuel' n d k (update_b n k X b) (update_G d k X G)
          (mkFactors (fr f) mu (fs f))
      else CheckFailed
  end.

(* numerics/lattices_body.hpp:543-546, step 4.  [z] is ζ + 1, the number of columns
   that are known to be zero; [fuel] is the initial value of κ. *)
Fixpoint find_insertion (fuel z k : nat) (f : factors) : nat :=
  match fuel with
  | O => k
  | S fuel' =>
    if (S z <=? k) && f_ge ops (f_mul ops (f_delta ops) (fget (fr f) (k - 1) (k - 1)))
                         (vget (fs f) (k - 1))
    then find_insertion fuel' z (k - 1) f
    else k
  end.

(* numerics/lattices_body.hpp:548-552, step 5. *)
Definition move_factors (z k k' : nat) (f : factors) : factors :=
  let f := loop z (k - z) (fun i f =>
             mkFactors (fset (fr f) i k (fget (fr f) i k'))
                       (fset (fmu f) i k (fget (fmu f) i k')) (fs f)) f in
  mkFactors (fset (fr f) k k (vget (fs f) k)) (fmu f) (fs f).

Definition is_zero_column (n k : nat) (b : grid Z) : bool :=
  forallb (fun i => (zget b i k =? 0)%Z) (seq 0 n).

(* numerics/lattices_body.hpp:539-570, the loop on κ. *)
Fixpoint ns_loop (fuel n d z k : nat) (b G : grid Z) (f : factors) : result (grid Z) :=
  if k <? d then
    match fuel with
    | O => Unfinished
    | S fuel' =>
      match SizeReduce fuel n d k b G f with
      | CheckFailed => CheckFailed
      | Unfinished => Unfinished
      | Done (b, G, f) =>
        let k' := k in
        let k := find_insertion k z k f in
        let f := move_factors z k k' f in
        let '(b, G) := if k' =? k then (b, G) else Insert k' k n d b G in
        let z := if is_zero_column n k b then S z else z in
        ns_loop fuel' n d z (Nat.max (S z) (S k)) b G f
      end
    end
  else Done b.

(* numerics/lattices_body.hpp:513-573, NguyễnStehlé.  [junk] are the contents of the
   uninitialized storage. *)
Definition NguyenStehle (fuel n d : nat) (L junkG : grid Z) (junk : factors)
  : result (grid Z) :=
  let G := Gram n d L junkG in
  ns_loop fuel n d 0 1 L G
    (mkFactors (fset (fr junk) 0 0 (f_of_Z ops (zget G 0 0))) (fmu junk) (fs junk)).

End Reduction.

(* ------------------------------------------------------------ instances *)

(* Half away from zero. *)
Definition llround_ratio (num : Z) (den : positive) : Z :=
  (Z.sgn num * ((2 * Z.abs num + Zpos den) / (2 * Zpos den)))%Z.

(* Exact arithmetic, where the result of a division by zero is 0. *)
Definition exact_ops : float_ops := {|
  F := Qc;
  f_of_Z z := Q2Qc (inject_Z z);
  f_sub := Qcminus;
  f_mul := Qcmult;
  f_div := Qcdiv;
  f_abs := Qcabs;
  f_gt x y := if Qclt_le_dec y x then true else false;
  f_ge x y := if Qclt_le_dec x y then false else true;
  f_llround x := llround_ratio (Qnum (this x)) (Qden (this x));
  f_eta := Q2Qc (21 # 40);
  f_delta := Q2Qc (7 # 8)
|}.

(* The arithmetic of binary64, rounded to the nearest, ties to even.  [junk] is the
   result of llround for a NaN or an infinity. *)
Definition binary64_of_Z (z : Z) : spec_float := binary_normalize 53 1024 z 0 false.
Definition binary64_gt (x y : spec_float) : bool :=
  match SFcompare x y with Some Gt => true | _ => false end.
Definition binary64_ge (x y : spec_float) : bool :=
  match SFcompare x y with Some Gt | Some Eq => true | _ => false end.
Definition binary64_llround (junk : Z) (x : spec_float) : Z :=
  match x with
  | S754_zero _ => 0%Z
  | S754_finite sign m e =>
    let num := if sign then Zneg m else Zpos m in
    if (0 <=? e)%Z then (num * 2 ^ e)%Z
    else llround_ratio num (Pos.pow 2 (Z.to_pos (- e)))
  | _ => junk
  end.
Definition binary64_ops (junk : Z) : float_ops := {|
  F := spec_float;
  f_of_Z := binary64_of_Z;
  f_sub := SFsub 53 1024;
  f_mul := SFmul 53 1024;
  f_div := SFdiv 53 1024;
  f_abs := SFabs;
  f_gt := binary64_gt;
  f_ge := binary64_ge;
  f_llround := binary64_llround junk;
  (* 0.55 is the double 4953959590107546 * 2^-53; the sum and the quotient are
     rounded, see [binary64_eta]. *)
  f_eta := SFdiv 53 1024 (SFadd 53 1024 (S754_finite false 4953959590107546 (-53))
                            (S754_finite false 4503599627370496 (-53)))
             (binary64_of_Z 2);
  f_delta := SFdiv 53 1024 (binary64_of_Z 7) (binary64_of_Z 8)
|}.
