(** Model of ksp_plugin/part_subsets.cpp. *)
From Coq Require Import List Arith Bool ZArith.
Import ListNotations.
Open Scope nat_scope.

(** Parts and pile-ups are identified by numbers. *)
Definition part := nat.
Definition pile_up := nat.

(** [Subset<Part>::Properties] (ksp_plugin/part_subsets.hpp:89-110).  [members] is not in the C++: it is the
    class of the union-find (base/disjoint_sets_body.hpp, see C06) whose root owns these properties. *)
Record subset := Subset {
  members : list part;
  parts : list part;
  missing : Z;
  grounded : bool;
  collected : bool }.

(** [containing] is [Part::containing_pile_up_], [pile_parts u] is [PileUp::parts()], [next] is an upper
    bound of the pile-ups ever allocated (so that a new object is distinct from all the others). *)
Record state := State {
  containing : part -> option pile_up;
  pile_parts : pile_up -> list part;
  next : pile_up;
  subsets : list subset }.

Definition set_containing (l : list part) (v : option pile_up) (f : part -> option pile_up) : part -> option pile_up :=
  fun p => if existsb (Nat.eqb p) l then v else f p.

(** ksp_plugin/part_subsets.cpp:25-30, the constructor, as called through [MakeSingleton]. *)
Definition make_singleton (s : state) (p : part) : subset :=
  Subset [p] [p]
    (match containing s p with Some u => Z.of_nat (length (pile_parts s u)) - 1 | None => 0 end)%Z
    false false.

(** ksp_plugin/part_subsets.cpp:115-117; [front()] of an empty list is undefined behaviour, [None]. *)
Definition front_pile_up (s : state) (x : subset) : option (option pile_up) :=
  match parts x with [] => None | p :: _ => Some (containing s p) end.

(** ksp_plugin/part_subsets.cpp:103-109. *)
Definition SubsetsOfSamePileUp (s : state) (l r : subset) : option bool :=
  match front_pile_up s l, front_pile_up s r with
  | Some (Some u), Some (Some v) => Some (Nat.eqb u v)
  | Some _, Some _ => Some false
  | _, _ => None
  end.

(** ksp_plugin/part_subsets.cpp:32-49, [this->MergeWith(other)]; [None] if a CHECK fails.  In the equality CHECK
    both sides are converted to unsigned 64-bit, which does not affect equality. *)
Definition MergeWith (s : state) (this other : subset) : option ((part -> option pile_up) * subset) :=
  match SubsetsOfSamePileUp s this other with
  | None => None
  | Some same =>
      let no := Z.of_nat (length (parts other)) in
      let nt := Z.of_nat (length (parts this)) in
      let merged m := Subset (members this ++ members other) (parts this ++ parts other) m
                             (grounded this || grounded other) (collected this) in
      if same then
        if (missing this - no =? missing other - nt)%Z then
          let m := (missing this - no)%Z in
          if (0 <=? m)%Z then Some (containing s, merged m) else None
        else None
      else
        Some (set_containing (parts other) None (set_containing (parts this) None (containing s)),
              merged (missing this))
  end.

Definition mem (p : part) (x : subset) : bool := existsb (Nat.eqb p) (members x).

(** [Subset<Part>::Unite(Find(p), Find(q))].  Which of the two properties is merged into the other is decided
    by the ranks; [flip] makes both possible. *)
Definition Unite (p q : part) (flip : bool) (s : state) : option state :=
  match find (mem p) (subsets s), find (mem q) (subsets s) with
  | Some x, Some y =>
      if mem q x then Some s
      else
        let '(this, other) := if flip then (y, x) else (x, y) in
        match MergeWith s this other with
        | Some (c, m) =>
            Some (State c (pile_parts s) (next s)
                    (m :: filter (fun z => negb (mem p z) && negb (mem q z)) (subsets s)))
        | None => None
        end
  | _, _ => None
  end.

(** ksp_plugin/part_subsets.cpp:51-53 through [Find]. *)
Definition Ground (p : part) (s : state) : option state :=
  match find (mem p) (subsets s) with
  | Some x =>
      Some (State (containing s) (pile_parts s) (next s)
              (Subset (members x) (parts x) (missing x) true (collected x) ::
               filter (fun z => negb (mem p z)) (subsets s)))
  | None => None
  end.

(** ksp_plugin/part_subsets.cpp:59-101, [Find(p).mutable_properties().Collect(...)].  The dynamical state of the
    pile-up is not modelled; constructing a [PileUp] allocates a new object and moves [parts_] into it. *)
Definition Collect (p : part) (s : state) : option state :=
  match find (mem p) (subsets s) with
  | None => None
  | Some x =>
      if collected x then Some s
      else
        let others := filter (fun z => negb (mem p z)) (subsets s) in
        match front_pile_up s x with
        | None => None
        | Some pu =>
            let subset_of_existing := match pu with Some _ => true | None => false end in
            if subset_of_existing && (missing x =? 0)%Z then
              Some (State (containing s) (pile_parts s) (next s)
                      (Subset (members x) (parts x) (missing x) (grounded x) true :: others))
            else
              let c := if subset_of_existing && (0 <? missing x)%Z
                       then set_containing (parts x) None (containing s) else containing s in
              let u := next s in
              Some (State (set_containing (parts x) (Some u) c)
                      (fun v => if Nat.eqb v u then parts x else pile_parts s v)
                      (S u)
                      (Subset (members x) [] (missing x) (grounded x) true :: others))
        end
  end.

(** A frame: the operations of a frame on the parts. *)
Inductive op := OUnite (p q : part) (flip : bool) | OGround (p : part).
Definition step (o : op) (s : state) : option state :=
  match o with OUnite p q f => Unite p q f s | OGround p => Ground p s end.
Fixpoint run (ops : list op) (s : state) : option state :=
  match ops with
  | [] => Some s
  | o :: ops' => match step o s with Some s' => run ops' s' | None => None end
  end.
Fixpoint collect_all (ps : list part) (s : state) : option state :=
  match ps with
  | [] => Some s
  | p :: ps' => match Collect p s with Some s' => collect_all ps' s' | None => None end
  end.

(** ksp_plugin/plugin.cpp:559-569, [PrepareToReportCollisions]. *)
Definition prepare (ps : list part) (s : state) : state :=
  State (containing s) (pile_parts s) (next s) (map (make_singleton s) ps).
