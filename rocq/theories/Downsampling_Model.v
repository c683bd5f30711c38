(** Model of the downsampling of physics/discrete_trajectory_segment_body.hpp, in exact arithmetic.

    A timeline is the list of its points, the latest first; each point has the interpolation that ends there, with its
    error.  A failing CHECK (or the dereferencing of a null interpolation) is [None].  The serialization is modelled as
    lossless: the code compresses the degrees of freedom of the points that are not in [exact] with an error of the order
    of the tolerance. *)
From Coq Require Import Reals List Bool.
From Verif Require Import Geometry_Model Hermite_Model.
Import ListNotations.
Open Scope R_scope.

Record point := Point { ptime : R; pposition : R3; pvelocity : R3 }.
(** physics/discrete_trajectory_types.hpp *)
Record element := Element { dof : point; interpolation : option (hermite3 * R) }.
Notation etime e := (ptime (dof e)).
Record segment := Segment { timeline : list element; tolerance : option R; downsampling_error : R }.

Definition new : segment := Segment [] None 0.

(** discrete_trajectory_segment_body.hpp:93-98 *)
Definition clear (s : segment) : segment := Segment [] None 0.
(** discrete_trajectory_segment_body.hpp:172-180 *)
Definition SetDownsampling (tol : R) (s : segment) : option segment :=
  if (length (timeline s) <=? 1)%nat then Some (Segment (timeline s) (Some tol) 0) else None.
(** discrete_trajectory_segment_body.hpp:182-185 *)
Definition ClearDownsampling (s : segment) : segment := Segment (timeline s) None (downsampling_error s).

(** discrete_trajectory_segment_body.hpp:610-624 *)
Definition Interpolate (lower upper : point) : hermite3 :=
  MakeHermite3 (ptime lower) (ptime upper) (pposition lower) (pposition upper) (pvelocity lower) (pvelocity upper).

(** discrete_trajectory_segment_body.hpp:461-475 *)
Definition AppendPoint (p : point) (s : segment) : option segment :=
  match timeline s with
  | [] => None
  | e :: _ => Some (Segment (Element p (Some (Interpolate (dof e) p, 0)) :: timeline s) (tolerance s) 0)
  end.

(** discrete_trajectory_segment_body.hpp:413-479 *)
Definition Append (p : point) (s : segment) : option segment :=
  match timeline s with
  | [] => Some (Segment [Element p None] (tolerance s) (downsampling_error s))
  | e :: r =>
      if Req_EM_T (etime (last (timeline s) e)) (ptime p) then Some s
      else if Rlt_dec (etime e) (ptime p) then
        match r, tolerance s with
        | l :: _, Some tol =>
            let h := Interpolate (dof l) p in
            match interpolation e with
            | None => None
            | Some (h', _) =>
                match subtract h h' with
                | None => None
                | Some d =>
                    let error := downsampling_error s + LInfinityL2Norm d in
                    if Rlt_dec error tol then Some (Segment (Element p (Some (h, error)) :: r) (tolerance s) error)
                    else AppendPoint p (Segment (timeline s) (tolerance s) error)
                end
            end
        | _, _ => AppendPoint p s
        end
      else None
  end.

(** discrete_trajectory_segment_body.hpp:376-395 *)
Fixpoint drop_after (t : R) (l : list element) : list element :=
  match l with e :: r => if Rlt_dec (etime e) t then l else drop_after t r | [] => [] end.
Definition ForgetAfter (t : R) (s : segment) : segment :=
  let l := drop_after t (timeline s) in
  Segment l (tolerance s) (match l with Element _ (Some (_, error)) :: _ => error | _ => 0 end).

(** discrete_trajectory_segment_body.hpp:397-411 *)
Fixpoint drop_before (t : R) (l : list element) : list element :=
  match l with
  | e :: r =>
      if Rlt_dec (etime e) t then []
      else match drop_before t r with [] => [Element (dof e) None] | r' => e :: r' end
  | [] => []
  end.
Definition ForgetBefore (t : R) (s : segment) : segment := Segment (drop_before t (timeline s)) (tolerance s) (downsampling_error s).

(** The points in chronological order, with the errors, and the tolerance: discrete_trajectory_segment_body.hpp:665-772. *)
Definition message := (list (point * R) * option R)%type.
Definition WriteToMessage (s : segment) : message :=
  (map (fun e => (dof e, match interpolation e with Some (_, error) => error | None => 0 end)) (rev (timeline s)), tolerance s).

(** One iteration of discrete_trajectory_segment_body.hpp:284-308; [i] tells if this is not the first one. *)
Definition read_point (s : option segment) (m : bool * (point * R)) : option segment :=
  let '(i, (p, error)) := m in
  match s with
  | None => None
  | Some s =>
      match Append p s with
      | None => None
      | Some s =>
          if i then
            match timeline s with
            | Element q (Some (h, _)) :: r => Some (Segment (Element q (Some (h, error)) :: r) (tolerance s) (downsampling_error s))
            | _ => None
            end
          else Some s
      end
  end.
Definition mark (l : list (point * R)) : list (bool * (point * R)) :=
  match l with [] => [] | p :: r => (false, p) :: map (fun p => (true, p)) r end.
(** discrete_trajectory_segment_body.hpp:222-317 *)
Definition ReadFromMessage (m : message) : option segment :=
  match fold_left read_point (mark (fst m)) (Some new) with
  | None => None
  | Some s => Some (Segment (timeline s) (snd m) (downsampling_error s))
  end.

(** UpdateInterpolation (discrete_trajectory_segment_body.hpp:582-608) at the point of time [t], if it is not the first
    one. *)
Fixpoint UpdateInterpolation (t : R) (l : list element) : list element :=
  match l with
  | e :: r =>
      match r with
      | [] => l
      | f :: _ => if Req_EM_T (etime e) t then Element (dof e) (Some (Interpolate (dof f) (dof e), 0)) :: r else e :: UpdateInterpolation t r
      end
  | [] => []
  end.

(** discrete_trajectory_segment_body.hpp:488-557: merging the segment [s'] into [s].  Of two points with the same time,
    the one of [s] is kept. *)
Definition Merge (s' s : segment) : option segment :=
  match timeline s', timeline s with
  | [], _ => Some s
  | _, [] => Some (Segment (timeline s') (tolerance s') (downsampling_error s))
  | e' :: _, e :: _ =>
      let f' := last (timeline s') e' in
      let f := last (timeline s) e in
      if Rle_dec (etime e) (etime f') then
        let l := if Req_EM_T (etime e) (etime f') then removelast (timeline s') else timeline s' in
        Some (Segment (UpdateInterpolation (etime f') (l ++ timeline s)) (tolerance s') (downsampling_error s))
      else if Rle_dec (etime e') (etime f) then
        let l := if Req_EM_T (etime e') (etime f) then tl (timeline s') else timeline s' in
        Some (Segment (UpdateInterpolation (etime f) (timeline s ++ l)) (tolerance s) (downsampling_error s))
      else None
  end.

(** timeline_.lower_bound(t) *)
Fixpoint lower_bound (t : R) (l : list element) : option element :=
  match l with
  | [] => None
  | e :: r => if Rlt_dec (etime e) t then None else match lower_bound t r with None => Some e | o => o end
  end.
(** discrete_trajectory_segment_body.hpp:131-142, with the CHECKs. *)
Definition EvaluatePosition (t : R) (s : segment) : option R3 :=
  match timeline s with
  | [] => None
  | e :: _ =>
      if Rle_dec (etime (last (timeline s) e)) t then
        if Rle_dec t (etime e) then
          match lower_bound t (timeline s) with
          | None => None
          | Some e =>
              if Req_EM_T (etime e) t then Some (pposition (dof e))
              else match interpolation e with Some (h, _) => Some (evaluate h t) | None => None end
          end
        else None
      else None
  end.
