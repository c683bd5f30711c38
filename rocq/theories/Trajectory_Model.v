(** Model of physics/discrete_trajectory_body.hpp, of the parts of physics/discrete_trajectory_segment_body.hpp that
    deal with timelines, and of physics/discrete_trajectory_iterator_body.hpp.

    Times are integers (the code uses only their order), degrees of freedom are identified by an integer (the code
    only copies and compares them; NaNs are not modelled).  A timeline is the list of its points.  An iterator over
    the std::list of segments is modelled by the position of the segment; the entries of the time-to-segment map are
    renumbered when segments are spliced from one list to another.  A failing CHECK is [Crash], undefined behaviour
    is [UB].

    Not modelled here: interpolations and the computation of the downsampling error (see Downsampling_Model).  Line
    229 of discrete_trajectory_body.hpp decrements the end iterator of an empty std::list if AttachSegments is called
    on an empty trajectory; in the usual implementations, where the list is circular, the subsequent increment yields
    the first segment, and this is what is modelled. *)
From Coq Require Import List Arith ZArith Bool.
Import ListNotations.
Open Scope Z_scope.

Notation time := Z.
Notation point := (Z * Z)%type.
Notation timeline := (list point).

Inductive result (A : Type) := Done (a : A) | Crash | UB.
Arguments Done {A}. Arguments Crash {A}. Arguments UB {A}.
Definition bind {A B} (r : result A) (f : A -> result B) : result B :=
  match r with Done a => f a | Crash => Crash | UB => UB end.
Notation "'do' x <- e ; f" := (bind e (fun x => f)) (at level 200, x pattern, e at level 100, f at level 200).
Definition check (b : bool) : result unit := if b then Done tt else Crash.
Definition defined {A} (o : option A) : result A := match o with Some a => Done a | None => UB end.

(** ** Timelines *)

(** The number of points before lower_bound(t), upper_bound(t). *)
Fixpoint lower_bound (t : time) (l : timeline) : nat :=
  match l with p :: r => if fst p <? t then S (lower_bound t r) else O | [] => O end.
Fixpoint upper_bound (t : time) (l : timeline) : nat :=
  match l with p :: r => if fst p <=? t then S (upper_bound t r) else O | [] => O end.

(** discrete_trajectory_segment_body.hpp:376-384 *)
Definition segment_ForgetAfter (t : time) (l : timeline) : timeline := firstn (lower_bound t l) l.
(** discrete_trajectory_segment_body.hpp:397-405 *)
Definition segment_ForgetBefore (t : time) (l : timeline) : timeline := skipn (lower_bound t l) l.
(** discrete_trajectory_segment_body.hpp:358-369 *)
Definition segment_Prepend (p : point) (l : timeline) : result timeline :=
  match l with
  | [] => Done [p]
  | f :: _ => do _ <- check (fst p <? fst f); Done (p :: l)
  end.
(** discrete_trajectory_segment_body.hpp:413-479.  [below] is true if downsampling is enabled and the test of line 446
    succeeds. *)
Definition segment_Append (below : bool) (p : point) (l : timeline) : result timeline :=
  match l with
  | [] => Done [p]
  | f :: _ =>
      if fst f =? fst p then Done l
      else
        do _ <- check (fst (last l f) <? fst p);
        if (1 <? length l)%nat && below then Done (removelast l ++ [p]) else Done (l ++ [p])
  end.
(** discrete_trajectory_segment_body.hpp:488-557; [s] is the parameter segment, [l] is the timeline of this object.
    The merge of timelines keeps the elements of [l]. *)
Definition segment_Merge (s l : timeline) : result timeline :=
  match s, l with
  | [], _ => Done l
  | _, [] => Done s
  | fs :: rs, fl :: rl =>
      if fst (last l fl) <=? fst fs then
        Done (l ++ (if fst (last l fl) =? fst fs then rs else s))
      else if fst (last s fs) <=? fst fl then
        Done ((if fst (last s fs) =? fst fl then removelast s else s) ++ l)
      else Crash
  end.

(** ** Trajectories *)

(** [left]: segment_by_left_endpoint_, in increasing order of time. *)
Notation endpoint_map := (list (time * nat)).
Record trajectory := Trajectory { segments : list timeline; left : endpoint_map }.

(** insert_or_assign *)
Fixpoint insert (t : time) (i : nat) (m : endpoint_map) : endpoint_map :=
  match m with
  | [] => [(t, i)]
  | (t', i') :: r => if t <? t' then (t, i) :: m else if t =? t' then (t, i) :: r else (t', i') :: insert t i r
  end.

(** upper_bound *)
Fixpoint map_upper_bound (t : time) (m : endpoint_map) : nat :=
  match m with (t', _) :: r => if t' <=? t then S (map_upper_bound t r) else O | [] => O end.

(** discrete_trajectory_body.hpp:764-788: position in the map, [None] for end(). *)
Definition FindSegment (t : time) (m : endpoint_map) : option nat :=
  match map_upper_bound t m with O => None | S n => Some n end.

Definition is_empty (l : timeline) : bool := match l with [] => true | _ => false end.

(** discrete_trajectory_body.hpp:825-853: the parallel traversal of the segments, of which those from [sit1] on are
    [l], and of the map. *)
Fixpoint walk (segs l : list timeline) (sit1 : nat) (m : endpoint_map) : result bool :=
  match m with
  | [] => match l with s :: _ => Done (is_empty s) | [] => Done true end
  | (_, sit2) :: m' =>
      do s2 <- defined (nth_error segs sit2);
      if is_empty s2 then Done false
      else match l with
           | [] => UB
           | s1 :: l' =>
               if (sit1 =? sit2)%nat then walk segs l' (S sit1) m'
               else if (length s1 <=? 1)%nat then walk segs l' (S sit1) m
               else Done false
           end
  end.

(** discrete_trajectory_body.hpp:809-824 *)
Fixpoint endpoints_match (segs : list timeline) (m : endpoint_map) : result bool :=
  match m with
  | [] => Done true
  | (t, i) :: m' =>
      do s <- defined (nth_error segs i);
      match s with
      | [] => endpoints_match segs m'
      | p :: _ => if t =? fst p then endpoints_match segs m' else Done false
      end
  end.

(** discrete_trajectory_body.hpp:854-896 *)
Fixpoint junctions_match (segs : list timeline) : bool :=
  match segs with
  | s1 :: (s2 :: _) as r =>
      match s1, s2 with
      | [], _ => true
      | p :: _, [] => false
      | p :: _, q :: _ => (fst (last s1 p) =? fst q) && (snd (last s1 p) =? snd q)
      end && junctions_match r
  | _ => true
  end.

(** discrete_trajectory_body.hpp:790-898 *)
Definition ConsistencyStatus (x : trajectory) : result bool :=
  let n := (length (left x) <=? length (segments x))%nat in
  let e := match left x with [] => forallb is_empty (segments x) | _ => true end in
  if negb n || negb e then Done false
  else
    do em <- endpoints_match (segments x) (left x);
    if negb em then Done false
    else
      do w <- walk (segments x) (segments x) 0 (left x);
      if negb w then Done false else Done (junctions_match (segments x)).

Definition checked (x : trajectory) : result trajectory :=
  do b <- ConsistencyStatus x; do _ <- check b; Done x.

(** discrete_trajectory_body.hpp:22-28 *)
Definition new : trajectory := Trajectory [[]] [].
(** discrete_trajectory_body.hpp:73-76 *)
Definition empty (x : trajectory) : bool := match left x with [] => true | _ => false end.
(** discrete_trajectory_body.hpp:95-100 *)
Definition clear (x : trajectory) : result trajectory :=
  match segments x with [] => UB | _ :: _ => Done (Trajectory [[]] []) end.

Definition segment_at (x : trajectory) (i : nat) : result timeline := defined (nth_error (segments x) i).
Definition map_at (m : endpoint_map) (n : nat) : result (time * nat) := defined (nth_error m n).
Definition set_segment (i : nat) (s : timeline) (l : list timeline) : list timeline := firstn i l ++ s :: skipn (S i) l.

(** front() of a segment, discrete_trajectory_segment_body.hpp:38-42: the iterator is moved to the next segment that is
    not empty, discrete_trajectory_iterator_body.hpp:259-275, and dereferencing the end fails a CHECK. *)
Fixpoint first_point (l : list timeline) : result point :=
  match l with [] => Crash | (p :: _) :: _ => Done p | [] :: l' => first_point l' end.
Definition segment_front (x : trajectory) (i : nat) : result point :=
  if (i <? length (segments x))%nat then first_point (skipn i (segments x)) else UB.

(** back(), discrete_trajectory_body.hpp:37-41 with discrete_trajectory_iterator_body.hpp:38-59 for the decrement from
    the end. *)
Definition trajectory_back (x : trajectory) : result point :=
  match rev (segments x) with
  | [] => UB
  | s :: r => match rev s, r with p :: _, _ => Done p | [], [] => Crash | [], s' :: _ => match rev s' with p :: _ => Done p | [] => UB end end
  end.
(** front(), discrete_trajectory_body.hpp:30-35 *)
Definition trajectory_front (x : trajectory) : result point :=
  do e <- map_at (left x) 0;
  do s <- segment_at x (snd e);
  defined (nth_error s 0).

(** discrete_trajectory_body.hpp:154-183 *)
Definition NewSegment (x : trajectory) : result trajectory :=
  match rev (segments x) with
  | [] => UB
  | s :: _ =>
      match rev s with
      | [] => do _ <- check (match left x with [] => true | _ => false end); checked (Trajectory (segments x ++ [[]]) (left x))
      | p :: _ => checked (Trajectory (segments x ++ [[p]]) (insert (fst p) (length (segments x)) (left x)))
      end
  end.

(** Copying the entries of a map, with the positions of the segments moved from [k] to [base]; an entry for a segment
    that has not moved would belong to the wrong list. *)
Fixpoint copy_entries (k base : nat) (from to : endpoint_map) : result endpoint_map :=
  match from with
  | [] => Done to
  | (t, i) :: r => if (k <=? i)%nat then copy_entries k base r (insert t (i - k + base) to) else UB
  end.

(** discrete_trajectory_body.hpp:901-938.  The segments from position [k] of [from] have been moved to position [base]
    of [to]; [from] has kept [k] segments. *)
Definition AdjustAfterSplicing (from to : trajectory) (k base : nat) : result (trajectory * trajectory) :=
  do p <- segment_front to base;
  let n := match FindSegment (fst p) (left from) with Some n => n | None => length (left from) end in
  do m <- copy_entries k base (skipn n (left from)) (left to);
  let from_left := firstn n (left from) in
  let from_left :=
    match rev (segments from) with
    | [] => from_left
    | s :: _ => match s with [] => from_left | q :: _ => insert (fst q) (length (segments from) - 1) from_left end
    end in
  Done (Trajectory (segments from) from_left, Trajectory (segments to) m).

(** discrete_trajectory_body.hpp:185-201: what is left, and what is detached, from the segment at position [k]. *)
Definition DetachSegments (x : trajectory) (k : nat) : result (trajectory * trajectory) :=
  do (x', detached) <- AdjustAfterSplicing (Trajectory (firstn k (segments x)) (left x)) (Trajectory (skipn k (segments x)) []) k 0;
  do x'' <- checked x';
  Done (x'', detached).

(** discrete_trajectory_body.hpp:203-242 *)
Definition AttachSegments (x y : trajectory) : result trajectory :=
  do _ <- check (negb (empty y));
  do (x, y) <-
    (if empty x then Done (Trajectory [] [], y)
     else
       do b <- trajectory_back x;
       do f <- trajectory_front y;
       if fst b =? fst f then do _ <- check (snd b =? snd f); Done (x, y)
       else
         do _ <- check (fst b <? fst f);
         match segments y, left y with
         | s :: r, (_, i) :: m => do s' <- segment_Prepend b s; Done (x, Trajectory (s' :: r) (insert (fst b) i m))
         | _, _ => UB
         end);
  do (_, x) <- AdjustAfterSplicing (Trajectory [] (left y)) (Trajectory (segments x ++ segments y) (left x)) 0 (length (segments x));
  checked x.

(** discrete_trajectory_body.hpp:244-266 *)
Definition DeleteSegments (x : trajectory) (k : nat) : result trajectory :=
  let segs := firstn k (segments x) in
  match rev segs with
  | [] => checked (Trajectory segs [])
  | [] :: _ => checked (Trajectory segs [])
  | (p :: _) :: _ =>
      let m := insert (fst p) (k - 1) (left x) in
      checked (Trajectory segs (firstn (map_upper_bound (fst p) m) m))
  end.

(** The loop of discrete_trajectory_body.hpp:281-287, from position [i]. *)
Fixpoint one_point_segments (segs : list timeline) (t : time) (i : nat) : nat :=
  match i with
  | O => O
  | S j => match nth_error segs j with
           | Some (p :: _) => if fst p =? t then one_point_segments segs t j else i
           | _ => i
           end
  end.

(** discrete_trajectory_body.hpp:268-309 *)
Definition ForgetAfter (t : time) (x : trajectory) : result trajectory :=
  match FindSegment t (left x) with
  | None => clear x
  | Some n =>
      do (_, sit) <- map_at (left x) n;
      let sit := one_point_segments (segments x) t sit in
      do s <- segment_at x sit;
      let s := segment_ForgetAfter t s in
      match s with
      | [] => checked (Trajectory (match sit with O => [[]] | _ => firstn sit (segments x) end) (firstn n (left x)))
      | _ => checked (Trajectory (firstn sit (segments x) ++ [s]) (firstn (S n) (left x)))
      end
  end.

(** discrete_trajectory_body.hpp:318-351 *)
Definition ForgetBefore (t : time) (x : trajectory) : result trajectory :=
  match FindSegment t (left x) with
  | None => Done x
  | Some n =>
      do (_, sit) <- map_at (left x) n;
      do s <- segment_at x sit;
      let s := segment_ForgetBefore t s in
      let segs := map (segment_ForgetBefore t) (firstn sit (segments x)) ++ s :: skipn (S sit) (segments x) in
      let m := skipn (S n) (left x) in
      let m := match s with [] => m | p :: _ => insert (fst p) sit m end in
      checked (Trajectory segs m)
  end.

(** discrete_trajectory_body.hpp:362-387, the DCHECK of line 385 being enabled. *)
Definition Append (below : bool) (p : point) (x : trajectory) : result trajectory :=
  match left x with
  | [] =>
      match rev (segments x) with
      | [] => UB
      | s :: _ =>
          do s' <- segment_Append below p s;
          checked (Trajectory (set_segment (length (segments x) - 1) s' (segments x)) (insert (fst p) (length (segments x) - 1) (left x)))
      end
  | _ =>
      match FindSegment (fst p) (left x) with
      | None => Crash
      | Some n =>
          do (_, sit) <- map_at (left x) n;
          do s <- segment_at x sit;
          do _ <- check (negb (is_empty s));
          do s' <- segment_Append below p s;
          checked (Trajectory (set_segment sit s' (segments x)) (left x))
      end
  end.

(** discrete_trajectory_body.hpp:406-412 *)
Fixpoint map_find (t : time) (m : endpoint_map) : option nat :=
  match m with [] => None | (t', i) :: r => if t =? t' then Some i else map_find t r end.
Fixpoint map_erase (t : time) (m : endpoint_map) : endpoint_map :=
  match m with [] => [] | (t', i) :: r => if t =? t' then r else (t', i) :: map_erase t r end.

(** discrete_trajectory_body.hpp:439-445: the segments of the target that follow the end of the source. *)
Fixpoint restore_entries (i : nat) (tgt : list timeline) (m : endpoint_map) : endpoint_map :=
  match tgt with
  | [] => m
  | l :: tgt' => restore_entries (S i) tgt' (match l with [] => m | p :: _ => insert (fst p) i m end)
  end.

(** The loop of discrete_trajectory_body.hpp:393-450, from position [i], [src] and [tgt] being the segments of the two
    trajectories from that position on.  The result has the merged segments and the segments of the source that are to
    be spliced. *)
Fixpoint merge_loop (i : nat) (src tgt : list timeline) (m : endpoint_map) : result (list timeline * list timeline * endpoint_map) :=
  match src, tgt with
  | s :: src', l :: tgt' =>
      do l' <- segment_Merge s l;
      let m :=
        match l, l' with
        | p :: _, p' :: _ =>
            if fst p' <? fst p then
              match map_find (fst p) m with Some j => if (j =? i)%nat then map_erase (fst p) m else m | None => m end
            else m
        | _, _ => m
        end in
      let m := match l' with [] => m | p' :: _ => insert (fst p') i m end in
      do (r, spliced, m) <- merge_loop (S i) src' tgt' m;
      Done (l' :: r, spliced, m)
  | src, [] => Done ([], src, m)
  | [], tgt => Done (tgt, [], restore_entries i tgt m)
  end.

(** discrete_trajectory_body.hpp:389-453 *)
Definition Merge (x y : trajectory) : result trajectory :=
  do (segs, spliced, m) <- merge_loop 0 (segments y) (segments x) (left x);
  match spliced with
  | [] => checked (Trajectory segs m)
  | _ =>
      match segs with
      | [] => UB
      | _ =>
          do (_, x) <- AdjustAfterSplicing (Trajectory (map (fun _ => []) segs) (left y)) (Trajectory (segs ++ spliced) m)
                         (length segs) (length segs);
          checked x
      end
  end.

(** ** Iterators *)

(** segment_ and point_: the position of a segment and of a point in its timeline; [End] if point_ has no value. *)
Inductive iterator := At (i j : nat) | End.

Definition time_at (segs : list timeline) (i j : nat) : option time :=
  match nth_error segs i with Some s => match nth_error s j with Some p => Some (fst p) | None => None end | None => None end.

(** discrete_trajectory_iterator_body.hpp:23-25 and 266-269: the first segment at or after [i] that is not empty, [None]
    for the end. *)
Fixpoint next_nonempty (l : list timeline) (i : nat) : option nat :=
  match l with [] => None | s :: r => if is_empty s then next_nonempty r (S i) else Some i end.

(** The constructor, discrete_trajectory_iterator_body.hpp:259-275 *)
Definition make_iterator (segs : list timeline) (i j : nat) : iterator :=
  match next_nonempty (skipn i segs) i with
  | None => End
  | Some i' => if (i' =? i)%nat then At i j else At i' 0
  end.

(** discrete_trajectory_iterator_body.hpp:14-36; [fuel] bounds the number of iterations of the loop. *)
Fixpoint increment_loop (fuel : nat) (segs : list timeline) (previous : time) (i j : nat) : result iterator :=
  match fuel with
  | O => UB
  | S fuel =>
      do s <- defined (nth_error segs i);
      let j := S j in
      match (if (j =? length s)%nat then
               match next_nonempty (skipn (S i) segs) (S i) with None => None | Some i' => Some (i', O) end
             else Some (i, j)) with
      | None => Done End
      | Some (i, j) =>
          do t <- defined (time_at segs i j);
          if t =? previous then increment_loop fuel segs previous i j else Done (At i j)
      end
  end.
Definition total (segs : list timeline) : nat := length (concat segs).
Definition increment (segs : list timeline) (it : iterator) : result iterator :=
  match it with
  | End => Crash
  | At i j => do t <- defined (time_at segs i j); increment_loop (S (total segs)) segs t i j
  end.

(** discrete_trajectory_iterator_body.hpp:38-59.  [previous] is [None] for InfiniteFuture.  Decrementing the end
    iterator of an empty timeline is undefined. *)
Fixpoint decrement_loop (fuel : nat) (segs : list timeline) (previous : option time) (i j : nat) : result iterator :=
  match fuel with
  | O => UB
  | S fuel =>
      do (i, j) <- match j with
                   | O => match i with
                          | O => Crash
                          | S i' => do s <- defined (nth_error segs i'); match length s with O => UB | S j' => Done (i', j') end
                          end
                   | S j' => Done (i, j')
                   end;
      do t <- defined (time_at segs i j);
      match previous with
      | Some t' => if t =? t' then decrement_loop fuel segs previous i j else Done (At i j)
      | None => Done (At i j)
      end
  end.
Definition decrement (segs : list timeline) (it : iterator) : result iterator :=
  match it with
  | End => match length segs with
           | O => UB
           | S i => do s <- defined (nth_error segs i); decrement_loop (S (total segs)) segs None i (length s)
           end
  | At i j => do t <- defined (time_at segs i j); decrement_loop (S (total segs)) segs (Some t) i j
  end.

(** discrete_trajectory_iterator_body.hpp:197-207 *)
Definition iterator_eq (segs : list timeline) (a b : iterator) : result bool :=
  match a, b with
  | End, End => Done true
  | End, At _ _ | At _ _, End => Done false
  | At i j, At i' j' =>
      do t <- defined (time_at segs i j); do t' <- defined (time_at segs i' j'); Done (t =? t')
  end.

(** discrete_trajectory_iterator_body.hpp:91-120, for n ≥ 0.  The recursion is on a bound on m. *)
Fixpoint advance_loop (fuel : nat) (segs : list timeline) (m : nat) (it : iterator) : result iterator :=
  match m, fuel with
  | O, _ => Done it
  | _, O => UB
  | _, S fuel =>
      match it with
      | End => Crash
      | At i j =>
          do s <- defined (nth_error segs i);
          if (2 <? length s)%nat && (length s <=? m + 2)%nat && (j =? 1)%nat then
            advance_loop fuel segs (m - (length s - 2)) (At i (length s - 1))
          else
            do it <- increment segs it; advance_loop fuel segs (m - 1) it
      end
  end.
Definition advance (segs : list timeline) (n : nat) (it : iterator) : result iterator := advance_loop n segs n it.

(** discrete_trajectory_iterator_body.hpp:122-154, for n ≥ 0. *)
Fixpoint retreat_loop (fuel : nat) (segs : list timeline) (m : nat) (it : iterator) : result iterator :=
  match m, fuel with
  | O, _ => Done it
  | _, O => UB
  | _, S fuel =>
      match it with
      | End => UB
      | At i j =>
          do s <- defined (nth_error segs i);
          if (2 <? length s)%nat && (length s <=? m + 2)%nat && (j =? length s - 2)%nat then
            retreat_loop fuel segs (m - (length s - 2)) (At i 0)
          else
            do it <- decrement segs it; retreat_loop fuel segs (m - 1) it
      end
  end.
Definition retreat (segs : list timeline) (n : nat) (it : iterator) : result iterator :=
  match n, it with
  | S m, End => do it <- decrement segs it; retreat_loop m segs m it
  | _, _ => retreat_loop n segs n it
  end.

(** discrete_trajectory_iterator_body.hpp:169-195.  [left_time] is [None] for InfiniteFuture. *)
Fixpoint distance_loop (fuel : nat) (segs : list timeline) (l : iterator) (left_time : option time) (it : iterator) (m : nat) : result nat :=
  do e <- iterator_eq segs it l;
  if (e : bool) then Done m
  else
    match fuel with
    | O => UB
    | S fuel =>
        match it with
        | End => Crash
        | At i j =>
            do s <- defined (nth_error segs i);
            do jump <-
              (if (2 <? length s)%nat then
                 do t <- defined (time_at segs i (length s - 1));
                 Done (match left_time with Some t' => t <=? t' | None => true end && (j =? 1)%nat)
               else Done false);
            if (jump : bool) then distance_loop fuel segs l left_time (At i (length s - 1)) (m + (length s - 2))
            else do it <- increment segs it; distance_loop fuel segs l left_time it (S m)
        end
    end.
Definition distance (segs : list timeline) (l r : iterator) : result nat :=
  do left_time <- match l with End => Done None | At i j => do t <- defined (time_at segs i j); Done (Some t) end;
  distance_loop (S (total segs)) segs l left_time r 0.

(** discrete_trajectory_body.hpp:43-59 and discrete_trajectory_segment_body.hpp:50-54 *)
Definition begin (x : trajectory) : result iterator :=
  match left x with
  | [] => Done End
  | (_, i) :: _ => Done (make_iterator (segments x) i 0)
  end.

(** discrete_trajectory_body.hpp:78-93 *)
Definition size (x : trajectory) : Z :=
  if empty x then 0
  else 1 + fold_right (fun s n => (if is_empty s then 0 else Z.of_nat (length s)) + n) 0 (segments x)
       - fold_right (fun s n => (if is_empty s then 0 else 1) + n) 0 (segments x).

(** discrete_trajectory_body.hpp:102-138, with the functions of discrete_trajectory_segment_body.hpp:319-350. *)
Definition segment_find (t : time) (s : timeline) : option nat :=
  match nth_error s (lower_bound t s) with
  | Some p => if fst p =? t then Some (lower_bound t s) else None
  | None => None
  end.
Definition segment_lower_bound (t : time) (s : timeline) : option nat :=
  if (lower_bound t s =? length s)%nat then None else Some (lower_bound t s).
Definition segment_upper_bound (t : time) (s : timeline) : option nat :=
  if (upper_bound t s =? length s)%nat then None else Some (upper_bound t s).
Definition lookup (f : time -> timeline -> option nat) (not_found : result iterator) (t : time) (x : trajectory) : result iterator :=
  match FindSegment t (left x) with
  | None => not_found
  | Some n =>
      do (_, i) <- map_at (left x) n;
      do s <- segment_at x i;
      match f t s with Some j => Done (make_iterator (segments x) i j) | None => Done End end
  end.
Definition trajectory_find (t : time) (x : trajectory) := lookup segment_find (Done End) t x.
Definition trajectory_lower_bound (t : time) (x : trajectory) := lookup segment_lower_bound (begin x) t x.
Definition trajectory_upper_bound (t : time) (x : trajectory) := lookup segment_upper_bound (begin x) t x.

(** t_min and t_max, discrete_trajectory_body.hpp:455-473; [None] for the infinities. *)
Definition t_min (x : trajectory) : result (option time) :=
  if empty x then Done None
  else match next_nonempty (segments x) 0 with
       | Some i => do t <- defined (time_at (segments x) i 0); Done (Some t)
       | None => UB
       end.
Definition t_max (x : trajectory) : result (option time) :=
  if empty x then Done None
  else match rev (segments x) with
       | [] => UB
       | s :: _ => match rev s with p :: _ => Done (Some (fst p)) | [] => Done None end
       end.
