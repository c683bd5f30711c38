(* The search for extrema, numerics/root_finders_body.hpp: GoldenSectionSearch, Brent (with
   a comparator), DoubleBrent.  The algorithms are written for any arithmetic; there are two
   of them, the real numbers and the doubles.  An argument, a difference of arguments or a
   value is a number. *)
From Coq Require Import Reals List Bool Arith ZArith.
From Flocq Require Import IEEE754.BinarySingleNaN IEEE754.Binary.
From Verif Require Double_Model RootFinders_Model.
Import ListNotations.

Record arithmetic (T : Type) := mkArithmetic {
  plus : T -> T -> T;
  minus : T -> T -> T;
  times : T -> T -> T;
  over : T -> T -> T;
  minus1 : T -> T;                    (* The unary minus. *)
  abs : T -> T;
  negative : T -> bool;               (* Sign(x).is_negative() *)
  less : T -> T -> bool;
  less_or_equal : T -> T -> bool;
  equal : T -> T -> bool;
  nought : T;
  half : T;
  two : T;
  lower_interior_ratio : T;           (* 2 - φ, root_finders_body.hpp:277 and 369. *)
  upper_interior_ratio : T;           (* φ - 1, root_finders_body.hpp:278. *)
  two_epsilon : T;                    (* 2 ϵ, root_finders_body.hpp:355-358. *)
  smallest : T                        (* t, root_finders_body.hpp:361-363. *)
}.
Arguments plus {T}. Arguments minus {T}. Arguments times {T}. Arguments over {T}.
Arguments minus1 {T}. Arguments abs {T}. Arguments negative {T}. Arguments less {T}.
Arguments less_or_equal {T}. Arguments equal {T}. Arguments nought {T}. Arguments half {T}.
Arguments two {T}. Arguments lower_interior_ratio {T}. Arguments upper_interior_ratio {T}.
Arguments two_epsilon {T}. Arguments smallest {T}.

(* Exact arithmetic; [two_epsilon] and [smallest] as for the doubles. *)
Definition golden_ratio : R := ((1 + sqrt 5) / 2)%R.
Definition reals : arithmetic R :=
  mkArithmetic R Rplus Rminus Rmult Rdiv Ropp Rabs
    (fun x => if Rlt_dec x 0 then true else false)
    (fun x y => if Rlt_dec x y then true else false)
    (fun x y => if Rle_dec x y then true else false)
    (fun x y => if Req_EM_T x y then true else false)
    0%R (/ 2)%R 2%R (2 - golden_ratio)%R (golden_ratio - 1)%R (/ 2 ^ 52)%R (/ 2 ^ 1074)%R.

(* quantities/numbers.hpp:5: the double nearest to φ. *)
Definition phi : Double_Model.double := Double_Model.of_Z2 7286977268806824 (-52).
Definition doubles : arithmetic Double_Model.double :=
  mkArithmetic Double_Model.double Double_Model.add Double_Model.sub Double_Model.mul
    Double_Model.div Double_Model.opp RootFinders_Model.Abs RootFinders_Model.Sign
    Double_Model.lt Double_Model.le Double_Model.eq
    Double_Model.zero RootFinders_Model.half RootFinders_Model.two
    (Double_Model.sub RootFinders_Model.two phi) (Double_Model.sub phi Double_Model.one)
    (Double_Model.mul RootFinders_Model.two RootFinders_Model.brent_epsilon)
    Double_Model.denorm_min.

Section Extrema.

Context {T : Type} (A : arithmetic T).

(* geometry/barycentre_calculator_body.hpp:77-95, Barycentre of two points. *)
Definition Barycentre2 (x y : T) : T := over A (plus A (plus A (nought A) x) y) (two A).
(* geometry/barycentre_calculator_body.hpp:15-47 and 60-70, Barycentre of two points with
   weights. *)
Definition BarycentreWeighted (x y wx wy : T) : T :=
  over A (plus A (times A x wx) (times A y wy)) (plus A wx wy).

(* -------------------------------------------------- GoldenSectionSearch *)

Record golden := mkGolden {
  lower : T; f_lower : T;
  lower_interior : T; f_lower_interior : T;
  upper_interior : T; f_upper_interior : T;
  upper : T; f_upper : T
}.

(* std::min with a comparator. *)
Definition std_min (compare : T -> T -> bool) (x y : T) : T := if compare y x then y else x.

(* root_finders_body.hpp:281-296. *)
Definition golden_start (f : T -> T) (lower_bound upper_bound : T) : golden :=
  let lower := lower_bound in
  let upper := upper_bound in
  let lower_interior := BarycentreWeighted lower upper (upper_interior_ratio A) (lower_interior_ratio A) in
  let upper_interior := BarycentreWeighted lower upper (lower_interior_ratio A) (upper_interior_ratio A) in
  mkGolden lower (f lower) lower_interior (f lower_interior)
    upper_interior (f upper_interior) upper (f upper).

(* root_finders_body.hpp:298-300. *)
Definition golden_continue (s : golden) : bool :=
  less A (lower s) (lower_interior s) && less A (lower_interior s) (upper_interior s)
  && less A (upper_interior s) (upper s).

(* root_finders_body.hpp:301-323, the body of the loop. *)
Definition golden_step (compare : T -> T -> bool) (f : T -> T) (s : golden) : golden :=
  let f_lower_min := std_min compare (f_lower s) (f_lower_interior s) in
  let f_upper_min := std_min compare (f_upper_interior s) (f_upper s) in
  if compare f_lower_min f_upper_min then
    let x := minus A (lower_interior s)
               (times A (minus A (lower_interior s) (lower s)) (lower_interior_ratio A)) in
    mkGolden (lower s) (f_lower s) x (f x)
      (lower_interior s) (f_lower_interior s) (upper_interior s) (f_upper_interior s)
  else
    let x := plus A (upper_interior s)
               (times A (minus A (upper s) (upper_interior s)) (lower_interior_ratio A)) in
    mkGolden (lower_interior s) (f_lower_interior s) (upper_interior s) (f_upper_interior s)
      x (f x) (upper s) (f_upper s).

(* root_finders_body.hpp:298-324, the loop; None if the fuel is exhausted. *)
Fixpoint golden_loop (fuel : nat) (compare : T -> T -> bool) (f : T -> T) (s : golden) : option golden :=
  match fuel with
  | O => None
  | S fuel' => if golden_continue s then golden_loop fuel' compare f (golden_step compare f s) else Some s
  end.

(* root_finders_body.hpp:272-326, GoldenSectionSearch. *)
Definition GoldenSectionSearch (fuel : nat) (f : T -> T) (lower_bound upper_bound : T)
    (compare : T -> T -> bool) : option T :=
  match golden_loop fuel compare f (golden_start f lower_bound upper_bound) with
  | Some s => Some (Barycentre2 (lower s) (upper s))
  | None => None
  end.

(* ---------------------------------------------------------------- Brent *)

Record brent := mkBrent {
  ba : T; bb : T; bv : T; bw : T; bx : T; bd : T; be : T; f_v : T; f_w : T; f_x : T
}.

(* root_finders_body.hpp:339-345. *)
Definition minimized (greater : bool) (f : T -> T) : T -> T :=
  fun x => if greater then minus1 A (f x) else f x.

(* root_finders_body.hpp:367-384; d is not initialized. *)
Definition brent_start (f : T -> T) (lower_bound upper_bound junk : T) : brent :=
  let a := lower_bound in
  let b := upper_bound in
  let x := plus A a (times A (lower_interior_ratio A) (minus A b a)) in
  mkBrent a b x x x junk (nought A) (f x) (f x) (f x).

(* root_finders_body.hpp:387-388. *)
Definition tolerance (eps x : T) : T :=
  plus A (times A eps (abs A (minus A x (nought A)))) (smallest A).

(* root_finders_body.hpp:386-392, the stopping criterion. *)
Definition brent_stop (eps : T) (s : brent) : bool :=
  let m := Barycentre2 (ba s) (bb s) in
  let t2 := times A (two A) (tolerance eps (bx s)) in
  less_or_equal A (abs A (minus A (bx s) m))
    (minus A t2 (times A (half A) (minus A (bb s) (ba s)))).

(* root_finders_body.hpp:393-407, the parabola. *)
Definition parabola (eps : T) (s : brent) : T * T :=
  if less A (tolerance eps (bx s)) (abs A (be s)) then
    let r1 := times A (minus A (bx s) (bw s)) (minus A (f_x s) (f_v s)) in
    let r2 := times A (minus A (bx s) (bv s)) (minus A (f_x s) (f_w s)) in
    let p := minus A (times A (minus A (bx s) (bv s)) r2) (times A (minus A (bx s) (bw s)) r1) in
    let q := times A (two A) (minus A r2 r1) in
    if negb (negative A q) then (minus1 A p, q) else (p, minus1 A q)
  else (nought A, nought A).

(* root_finders_body.hpp:408-423, the new d and e. *)
Definition brent_move (eps : T) (s : brent) : T * T :=
  let m := Barycentre2 (ba s) (bb s) in
  let tol := tolerance eps (bx s) in
  let t2 := times A (two A) tol in
  let '(p, q) := parabola eps s in
  if less A (abs A p) (abs A (times A (times A (half A) q) (be s)))
     && less A (times A q (minus A (ba s) (bx s))) p
     && less A p (times A q (minus A (bb s) (bx s)))
  then
    let d := over A p q in
    let u := plus A (bx s) d in
    if less A (minus A u (ba s)) t2 || less A (minus A (bb s) u) t2
    then (if less A (bx s) m then tol else minus1 A tol, bd s)
    else (d, bd s)
  else
    let e := minus A (if less A (bx s) m then bb s else ba s) (bx s) in
    (times A (lower_interior_ratio A) e, e).

(* root_finders_body.hpp:425, the point u. *)
Definition brent_point (eps : T) (s : brent) (d : T) : T :=
  let tol := tolerance eps (bx s) in
  plus A (bx s) (if less A tol (abs A d) then d else if negative A d then minus1 A tol else tol).

(* root_finders_body.hpp:427-455, the update of a, b, v, w, x. *)
Definition brent_update (s : brent) (d e u f_u : T) : brent :=
  if less_or_equal A f_u (f_x s) then
    let '(a, b) := if less A u (bx s) then (ba s, bx s) else (bx s, bb s) in
    mkBrent a b (bw s) (bx s) u d e (f_w s) (f_x s) f_u
  else
    let '(a, b) := if less A u (bx s) then (u, bb s) else (ba s, u) in
    if less_or_equal A f_u (f_w s) || equal A (bw s) (bx s) then
      mkBrent a b (bw s) u (bx s) d e (f_w s) f_u (f_x s)
    else if less_or_equal A f_u (f_v s) || equal A (bv s) (bx s) || equal A (bv s) (bw s) then
      mkBrent a b u (bw s) (bx s) d e f_u (f_w s) (f_x s)
    else mkBrent a b (bv s) (bw s) (bx s) d e (f_v s) (f_w s) (f_x s).

Definition brent_step (eps : T) (f : T -> T) (s : brent) : brent :=
  let '(d, e) := brent_move eps s in
  let u := brent_point eps s d in
  brent_update s d e u (f u).

(* root_finders_body.hpp:385-456, the loop; None if the fuel is exhausted. *)
Fixpoint brent_loop (fuel : nat) (eps : T) (f : T -> T) (s : brent) : option T :=
  match fuel with
  | O => None
  | S fuel' => if brent_stop eps s then Some (bx s) else brent_loop fuel' eps f (brent_step eps f s)
  end.

(* root_finders_body.hpp:328-457, Brent. *)
Definition BrentExtremum (fuel : nat) (f : T -> T) (lower_bound upper_bound : T) (greater : bool)
    (eps junk : T) : option T :=
  let f := minimized greater f in
  (* std::max *)
  let eps := if less A eps (two_epsilon A) then two_epsilon A else eps in
  brent_loop fuel eps f (brent_start f lower_bound upper_bound junk).

(* ---------------------------------------------------------- DoubleBrent *)

(* The outcome of DoubleBrent, or of one of the functions that it calls. *)
Inductive outcome (X : Type) := Returned (x : X) | Failed | Running.
Arguments Returned {X}. Arguments Failed {X}. Arguments Running {X}.

(* The insertion into absl::btree_set. *)
Fixpoint insert (x : T) (l : list T) : list T :=
  match l with
  | [] => [x]
  | y :: l' => if less A x y then x :: l else if less A y x then y :: insert x l' else l
  end.

(* root_finders_body.hpp:158-268, DoubleBrent.  [zero], [minimum] and [maximum] are the calls
   to Brent, the fuel bounds the depth of the recursion. *)
Section DoubleBrent.
Variable f : T -> T.
Variable eps : T.
Variables zero minimum maximum : T -> T -> outcome T.

(* root_finders_body.hpp:263-266, std::merge. *)
Definition merge (zeroes zeroes_above zeroes_below : list T) : list T :=
  fold_left (fun l x => insert x l) (zeroes_above ++ zeroes_below) zeroes.

(* The calls to DoubleBrent on both sides of c. *)
Definition both (rec : T -> T -> outcome (list T)) (zeroes : list T) (a b c : T) : outcome (list T) :=
  match rec c b with
  | Returned zeroes_above =>
    match rec a c with
    | Returned zeroes_below => Returned (merge zeroes zeroes_above zeroes_below)
    | r => r
    end
  | r => r
  end.

(* root_finders_body.hpp:178-181. *)
Definition effective_bounds (a b : T) : T * T :=
  let x := abs A (minus A a (nought A)) in
  let y := abs A (minus A b (nought A)) in
  (* std::max *)
  let tolerance := times A eps (if less A x y then y else x) in
  (plus A a tolerance, minus A b tolerance).

Definition effective (a b x : T) : bool :=
  let '(a_effective, b_effective) := effective_bounds a b in
  less_or_equal A a_effective x && less_or_equal A x b_effective.

(* root_finders_body.hpp:243-261. *)
Definition at_bound (rec : T -> T -> outcome (list T)) (zeroes : list T) (a b : T) : outcome (list T) :=
  match minimum a b with
  | Returned x =>
    if effective a b x then both rec zeroes a b x
    else
      match maximum a b with
      | Returned x => if effective a b x then both rec zeroes a b x else Returned zeroes
      | Failed => Failed
      | Running => Running
      end
  | Failed => Failed
  | Running => Running
  end.

Fixpoint DoubleBrent (fuel : nat) (a b : T) : outcome (list T) :=
  match fuel with
  | O => Running
  | S fuel' =>
    let rec := DoubleBrent fuel' in
    let f_a := f a in
    let f_b := f b in
    let zero_a := equal A f_a (nought A) in
    let zero_b := equal A f_b (nought A) in
    let zeroes := if zero_a then insert a [] else [] in
    let zeroes := if zero_b then insert b zeroes else zeroes in
    if zero_a || zero_b then at_bound rec zeroes a b
    else if Bool.eqb (negative A f_a) (negative A f_b) then
      match (if negb (negative A f_a) then minimum a b else maximum a b) with
      | Returned x => if effective a b x then both rec zeroes a b x else Returned []
      | Failed => Failed
      | Running => Running
      end
    else
      match zero a b with
      | Returned c =>
        if equal A a c || equal A b c then at_bound rec (insert c zeroes) a b
        else both rec zeroes a b c
      | Failed => Failed
      | Running => Running
      end
  end.
End DoubleBrent.

End Extrema.
Arguments Returned {X}. Arguments Failed {X}. Arguments Running {X}.

(* root_finders.hpp:83, the default value of eps for Brent: Sqrt(2⁻⁵³). *)
Definition brent_eps : Double_Model.double := Double_Model.of_Z2 6369051672525773 (-79).
(* root_finders.hpp:54-55, the default value of eps for DoubleBrent. *)
Definition double_brent_eps : Double_Model.double := Double_Model.mul (Double_Model.of_Z 1000) brent_eps.

(* DoubleBrent on doubles; [iterations] bounds the number of iterations of each call to Brent. *)
Definition zero_finder (iterations : nat) (f : Double_Model.double -> Double_Model.double)
    (a b : Double_Model.double) : outcome Double_Model.double :=
  match RootFinders_Model.Brent iterations f a b with
  | RootFinders_Model.Returned x => Returned x
  | RootFinders_Model.CheckFailed => Failed
  | RootFinders_Model.Running => Running
  end.
Definition extremum_finder (iterations : nat) (f : Double_Model.double -> Double_Model.double) (greater : bool)
    (junk a b : Double_Model.double) : outcome Double_Model.double :=
  match BrentExtremum doubles iterations f a b greater brent_eps junk with
  | Some x => Returned x
  | None => Running
  end.
Definition DoubleBrentDoubles (fuel iterations : nat) (f : Double_Model.double -> Double_Model.double)
    (a b eps junk : Double_Model.double) : outcome (list Double_Model.double) :=
  DoubleBrent doubles f eps (zero_finder iterations f) (extremum_finder iterations f false junk)
    (extremum_finder iterations f true junk) fuel a b.
