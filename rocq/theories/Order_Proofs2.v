(** The expansions of the steps of a Runge-Kutta-Nyström method and of the solutions of the equation, over trees. *)
From Coq Require Import Reals List Bool Arith Lra Lia.
From Verif Require Import Multistep_Proofs Multistep_Proofs2 OneStep_Proofs3 Order_Proofs.
Import ListNotations.
Open Scope R_scope.

Lemma sums_abs : forall n f, Rabs (sum_to n f) <= sum_to n (fun i => Rabs (f i)).
Proof.
  induction n as [|n IH]; intros f; [cbn; rewrite Rabs_R0; lra|]. rewrite !sum_to_last. eapply Rle_trans; [apply Rabs_triang|]. specialize (IH f). lra.
Qed.
Lemma sums_le : forall n f g, (forall i, (i < n)%nat -> f i <= g i) -> sum_to n f <= sum_to n g.
Proof. induction n as [|n IH]; intros f g H; [cbn; lra|]. rewrite !sum_to_last. pose proof (H n ltac:(lia)). pose proof (IH f g ltac:(intros; apply H; lia)). lra. Qed.
Lemma sums_nonneg : forall n f, (forall i, (i < n)%nat -> 0 <= f i) -> 0 <= sum_to n f.
Proof. induction n as [|n IH]; intros f H; [cbn; lra|]. rewrite sum_to_last. pose proof (H n ltac:(lia)). pose proof (IH f ltac:(intros; apply H; lia)). lra. Qed.

(** * Trees *)
(** The rooted trees of the equation [q'' = f(t, q, q')], built by attaching subtrees to the root one after the other: a
    [Leaf] is a time or a velocity that comes from a position, the others are values of [f] that come from a velocity
    or from a position. *)
Inductive tree := Root | Leaf (t : tree) | GraftV (t u : tree) | GraftQ (t u : tree).
Fixpoint order (t : tree) : nat :=
  match t with
  | Root => 1
  | Leaf t => order t + 1
  | GraftV t u => order t + order u
  | GraftQ t u => order t + order u + 1
  end.
(** The weight of the subtrees of a tree for the solution of the equation: the products of the inverses of their orders,
    counting the vertices of the positions. *)
Fixpoint psi (t : tree) : R :=
  match t with
  | Root => 1
  | Leaf t => psi t
  | GraftV t u => psi t * (psi u / INR (order u))
  | GraftQ t u => psi t * (psi u / (INR (order u) * INR (order u + 1)))
  end.
(** The weight of a tree for the stage [i] of a method. *)
Fixpoint phi (c : nat -> R) (a aʹ : nat -> nat -> R) (t : tree) (i : nat) : R :=
  match t with
  | Root => 1
  | Leaf t => phi c a aʹ t i * c i
  | GraftV t u => phi c a aʹ t i * sum_to i (fun j => aʹ i j * phi c a aʹ u j)
  | GraftQ t u => phi c a aʹ t i * sum_to i (fun j => a i j * phi c a aʹ u j)
  end.
(** The trees for an equation where [f] depends on the positions and on the velocities, or not. *)
Fixpoint allowed (on_q on_v : bool) (t : tree) : Prop :=
  match t with
  | Root => True
  | Leaf t => allowed on_q on_v t
  | GraftV t u => on_v = true /\ allowed on_q on_v t /\ allowed on_q on_v u
  | GraftQ t u => on_q = true /\ allowed on_q on_v t /\ allowed on_q on_v u
  end.
(** The order conditions, for the velocities and for the positions. *)
Definition velocity_conditions (on_q on_v : bool) (n : nat) (c : nat -> R) (a aʹ : nat -> nat -> R) (bʹ : nat -> R) (p : nat) : Prop :=
  forall t, allowed on_q on_v t -> (order t <= p)%nat -> sum_to n (fun i => bʹ i * phi c a aʹ t i) = psi t / INR (order t).
Definition position_conditions (on_q on_v : bool) (n : nat) (c : nat -> R) (a aʹ : nat -> nat -> R) (b : nat -> R) (p : nat) : Prop :=
  forall t, allowed on_q on_v t -> (order t + 1 <= p)%nat ->
    sum_to n (fun i => b i * phi c a aʹ t i) = psi t / (INR (order t) * INR (order t + 1)).

(** The order conditions hold within [eps]. *)
Definition velocity_conditions_within (eps : R) (on_q on_v : bool) (n : nat) (c : nat -> R) (a aʹ : nat -> nat -> R) (bʹ : nat -> R) (p : nat) : Prop :=
  forall t, allowed on_q on_v t -> (order t <= p)%nat -> Rabs (sum_to n (fun i => bʹ i * phi c a aʹ t i) - psi t / INR (order t)) <= eps.
Definition position_conditions_within (eps : R) (on_q on_v : bool) (n : nat) (c : nat -> R) (a aʹ : nat -> nat -> R) (b : nat -> R) (p : nat) : Prop :=
  forall t, allowed on_q on_v t -> (order t + 1 <= p)%nat ->
    Rabs (sum_to n (fun i => b i * phi c a aʹ t i) - psi t / (INR (order t) * INR (order t + 1))) <= eps.

(** * Equations *)
Inductive expr := Const (c : R) | Time | Pos (v : nat) | Vel (v : nat) | Add (e1 e2 : expr) | Mul (e1 e2 : expr) | Inv (e : expr) | Sqrt (e : expr).
Fixpoint eval (e : expr) (t : R) (q v : nat -> R) : R :=
  match e with
  | Const c => c
  | Time => t
  | Pos i => q i
  | Vel i => v i
  | Add e1 e2 => eval e1 t q v + eval e2 t q v
  | Mul e1 e2 => eval e1 t q v * eval e2 t q v
  | Inv e => / eval e t q v
  | Sqrt e => sqrt (eval e t q v)
  end.
Fixpoint defined (e : expr) (t : R) (q v : nat -> R) : Prop :=
  match e with
  | Const _ | Time | Pos _ | Vel _ => True
  | Add e1 e2 | Mul e1 e2 => defined e1 t q v /\ defined e2 t q v
  | Inv e => defined e t q v /\ eval e t q v <> 0
  | Sqrt e => defined e t q v /\ 0 < eval e t q v
  end.
Fixpoint uses (on_q on_v : bool) (e : expr) : Prop :=
  match e with
  | Const _ | Time => True
  | Pos _ => on_q = true
  | Vel _ => on_v = true
  | Add e1 e2 | Mul e1 e2 => uses on_q on_v e1 /\ uses on_q on_v e2
  | Inv e | Sqrt e => uses on_q on_v e
  end.

(** * Expansions over trees *)
Fixpoint merge (t u : tree) : tree :=
  match u with
  | Root => t
  | Leaf u => Leaf (merge t u)
  | GraftV u x => GraftV (merge t u) x
  | GraftQ u x => GraftQ (merge t u) x
  end.
Lemma order_pos : forall t, (1 <= order t)%nat.
Proof. induction t; cbn; lia. Qed.
Lemma merge_order : forall t u, (order (merge t u) + 1 = order t + order u)%nat.
Proof. induction u as [|u IH|u IH x _|u IH x _]; cbn; lia. Qed.
Lemma merge_psi : forall t u, psi (merge t u) = psi t * psi u.
Proof. induction u as [|u IH|u IH x _|u IH x _]; cbn; try rewrite IH; ring. Qed.
Lemma merge_phi : forall c a aʹ i t u, phi c a aʹ (merge t u) i = phi c a aʹ t i * phi c a aʹ u i.
Proof. induction u as [|u IH|u IH x _|u IH x _]; cbn; try rewrite IH; ring. Qed.
Lemma merge_allowed : forall on_q on_v t u, allowed on_q on_v t -> allowed on_q on_v u -> allowed on_q on_v (merge t u).
Proof. induction u as [|u IH|u IH x _|u IH x _]; cbn; intuition. Qed.

Fixpoint total (w : tree -> R) (l : list (tree * R)) : R := match l with [] => 0 | (t, c) :: l => c * w t + total w l end.
Lemma total_app : forall w l l', total w (l ++ l') = total w l + total w l'.
Proof. induction l as [|[t c] l IH]; intros l'; cbn; [ring|]. rewrite IH. ring. Qed.
Definition merge_lists (l l' : list (tree * R)) : list (tree * R) :=
  flat_map (fun '(t, c) => map (fun '(u, d) => (merge t u, c * d)) l') l.
Lemma total_merge : forall w l l', (forall t u, w (merge t u) = w t * w u) -> total w (merge_lists l l') = total w l * total w l'.
Proof.
  intros w l l' M. induction l as [|[t c] l IH]; cbn; [ring|]. rewrite total_app. fold (merge_lists l l'). rewrite IH.
  assert (E : total w (map (fun '(u, d) => (merge t u, c * d)) l') = c * w t * total w l').
  { clear IH. induction l' as [|[u d] l' IH]; cbn; [ring|]. rewrite IH, M. ring. }
  rewrite E. ring.
Qed.
Lemma total_flat_map : forall w (g : nat -> list (tree * R)) n k, total w (flat_map g (seq k n)) = sum_to n (fun i => total w (g (k + i)%nat)).
Proof.
  induction n as [|n IH]; intros k; [reflexivity|]. cbn [seq flat_map]. rewrite total_app, IH, sum_to_S, Nat.add_0_r. f_equal.
  apply sum_to_ext. intros i _. do 2 f_equal. lia.
Qed.
Lemma total_map : forall w w' (k : R) (g : tree -> tree) l, (forall t c, In (t, c) l -> w (g t) = k * w' t) ->
  total w (map (fun '(t, c) => (g t, c)) l) = k * total w' l.
Proof.
  induction l as [|[t c] l IH]; intros H; cbn; [ring|]. rewrite (H t c (or_introl eq_refl)), IH; [ring|]. intros t' c' I. apply (H t' c'). right. exact I.
Qed.
Lemma total_ext : forall w w' l, (forall t c, In (t, c) l -> w t = w' t) -> total w l = total w' l.
Proof. induction l as [|[t c] l IH]; intros H; [reflexivity|]. cbn. rewrite (H t c (or_introl eq_refl)), IH; [reflexivity|]. intros t' c' I. apply (H t' c'). right. exact I. Qed.
Lemma total_sum : forall n (w : nat -> tree -> R) (k : nat -> R) l, sum_to n (fun i => k i * total (w i) l) = total (fun t => sum_to n (fun i => k i * w i t)) l.
Proof.
  induction l as [|[t c] l IH].
  - cbn. apply sum_to_0. intros. ring.
  - cbn [total]. rewrite (sum_to_ext n _ (fun i => c * (k i * w i t) + k i * total (w i) l)) by (intros; ring). rewrite sum_to_add, sum_to_scal, IH. reflexivity.
Qed.

Section Expansions.
  Context {I : Type}.
  Variables (w : I -> tree -> R) (on_q on_v : bool).
  Hypothesis w_root : forall i, w i Root = 1.
  Hypothesis w_merge : forall i t u, w i (merge t u) = w i t * w i u.
  (** The functions [g] have expansions with the same coefficients up to their weights. *)
  Definition table_ok (d : nat) (r : nat -> list (tree * R)) : Prop :=
    forall k t c, In (t, c) (r k) -> (order t = k + 1 + d)%nat /\ allowed on_q on_v t.
  Definition expands (n d : nat) (g : I -> R -> R) (r : nat -> list (tree * R)) : Prop :=
    table_ok d r /\ forall i, agree n (g i) (fun k => total (w i) (r k)).
  Definition rep (n d : nat) (g : I -> R -> R) : Prop := exists r, expands n d g r.
  Lemma rep_le : forall m n d g, (m <= n)%nat -> rep n d g -> rep m d g.
  Proof. intros m n d g L (r & O & A). exists r. split; [exact O|]. intros i. apply (agree_le m n); [exact L|apply A]. Qed.
  Lemma rep_same : forall n d g g', (forall i, eventually (fun h => g i h = g' i h)) -> rep n d g -> rep n d g'.
  Proof. intros n d g g' E (r & O & A). exists r. split; [exact O|]. intros i. eapply agree_same; [apply E|apply A]. Qed.
  Definition root_table (c : R) (k : nat) : list (tree * R) := match k with O => [(Root, c)] | S _ => [] end.
  Lemma root_table_ok : forall c, table_ok 0 (root_table c).
  Proof. intros c [|k] t x; [|intros []]. intros [E|[]]. injection E as <- <-. split; [reflexivity|exact Logic.I]. Qed.
  Lemma root_total : forall c i k, total (w i) (root_table c k) = unit_coef c k.
  Proof. intros c i [|k]; cbn; [rewrite w_root; ring|reflexivity]. Qed.
  Lemma rep_const : forall n c, rep n 0 (fun _ _ => c).
  Proof.
    intros n c. exists (root_table c). split; [apply root_table_ok|]. intros i. eapply agree_coef; [|apply agree_const]. intros k _. cbn beta. rewrite root_total. reflexivity.
  Qed.
  Lemma rep_1 : forall g c, (forall i, agree 1 (g i) (unit_coef c)) -> rep 1 0 g.
  Proof. intros g c A. exists (root_table c). split; [apply root_table_ok|]. intros i. eapply agree_coef; [|apply A]. intros k _. cbn beta. rewrite root_total. reflexivity. Qed.
  Lemma rep_add : forall n d g g', rep n d g -> rep n d g' -> rep n d (fun i h => g i h + g' i h).
  Proof.
    intros n d g g' (r & O & A) (r' & O' & A'). exists (fun k => r k ++ r' k). split.
    - intros k t c In. apply in_app_or in In. destruct In as [In|In]; [apply (O k t c In)|apply (O' k t c In)].
    - intros i. eapply agree_coef; [|apply agree_add; [apply A|apply A']]. intros k _. cbn beta. rewrite total_app. reflexivity.
  Qed.
  Lemma rep_mul : forall n d d' g g', rep n d g -> rep n d' g' -> rep n (d + d') (fun i h => g i h * g' i h).
  Proof.
    intros n d d' g g' (r & O & A) (r' & O' & A'). exists (fun k => flat_map (fun i => merge_lists (r i) (r' (k - i)%nat)) (seq 0 (S k))). split.
    - intros k t c In. apply in_flat_map in In. destruct In as (j & Hj & In). apply in_seq in Hj.
      unfold merge_lists in In. apply in_flat_map in In. destruct In as ([t1 c1] & In1 & In). apply in_map_iff in In. destruct In as ([t2 c2] & E & In2).
      injection E as <- <-. destruct (O _ _ _ In1) as [O1 L1]. destruct (O' _ _ _ In2) as [O2 L2]. split; [pose proof (merge_order t1 t2); lia|apply merge_allowed; assumption].
    - intros i. eapply agree_coef; [|apply agree_mul; [apply A|apply A']]. intros k _. cbn beta. rewrite total_flat_map. unfold cauchy.
      apply sum_to_ext. intros j _. cbn [plus]. rewrite total_merge by apply w_merge. reflexivity.
  Qed.
  Lemma rep_scal : forall n d k g, rep n d g -> rep n d (fun i h => k * g i h).
  Proof. intros n d k g R. apply (rep_mul n 0 d (fun _ _ => k) g); [apply rep_const|exact R]. Qed.
  (** Division by the step, and multiplication by it. *)
  Lemma rep_down : forall n g c, (forall i, agree 1 (g i) (unit_coef c)) -> rep (S n) 0 g -> rep n 1 (fun i h => (g i h - c) / h).
  Proof.
    intros n g c A1 (r & O & A). exists (fun k => r (S k)). split.
    - intros k t x In. destruct (O _ _ _ In). split; [lia|assumption].
    - intros i. specialize (A i). assert (E : total (w i) (r 0%nat) = c) by (apply (agree_unique 1 (g i) _ (unit_coef c) (agree_le 1 (S n) _ _ ltac:(lia) A) (A1 i) 0%nat); lia).
      apply agree_S in A. rewrite E in A. exact A.
  Qed.
  Lemma rep_up : forall n g c, rep n 1 g -> rep (S n) 0 (fun i h => c + h * g i h).
  Proof.
    intros n g c (r & O & A). exists (fun k => match k with O => [(Root, c)] | S k => r k end). split.
    - intros [|k] t x In; [destruct In as [E|[]]; injection E as <- <-; split; [reflexivity|exact Logic.I]|]. destruct (O _ _ _ In). split; [lia|assumption].
    - intros i. eapply agree_coef; [|apply agree_up, A]. intros [|k] _; cbn; [rewrite w_root; ring|reflexivity].
  Qed.
  Lemma rep_inv : forall n g c, (forall i, agree 1 (g i) (unit_coef c)) -> c <> 0 -> rep (S n) 0 g -> rep (S n) 0 (fun i h => / g i h).
  Proof.
    induction n as [|n IH]; intros g c A1 N R.
    - apply (rep_1 _ (/ c)). intros i. apply (agree_1_inv (g i) (unit_coef c) (A1 i) N).
    - pose proof (IH g c A1 N (rep_le (S n) (S (S n)) 0 g ltac:(lia) R)) as R'. pose proof (rep_down (S n) g c A1 R) as D.
      pose proof (rep_up (S n) _ (/ c) (rep_scal (S n) 1 (- / c) _ (rep_mul (S n) 1 0 _ _ D R'))) as U.
      eapply rep_same; [|exact U]. intros i. eapply eventually_imp; [|apply (agree_1_inv (g i) (unit_coef c) (A1 i) N)].
      intros h Hh X. cbn beta in *. cbn [unit_coef] in *. field. auto.
  Qed.
  Lemma rep_sqrt : forall n g c, (forall i, agree 1 (g i) (unit_coef c)) -> 0 < c -> rep (S n) 0 g -> rep (S n) 0 (fun i h => sqrt (g i h)).
  Proof.
    induction n as [|n IH]; intros g c A1 N R.
    - apply (rep_1 _ (sqrt c)). intros i. apply (agree_1_sqrt (g i) (unit_coef c) (A1 i) N).
    - pose proof (IH g c A1 N (rep_le (S n) (S (S n)) 0 g ltac:(lia) R)) as R'. pose proof (rep_down (S n) g c A1 R) as D.
      pose proof (sqrt_lt_R0 c N) as SP.
      assert (A2 : forall i, agree 1 (fun h => sqrt (g i h) + sqrt c) (unit_coef (2 * sqrt c))).
      { intros i. eapply agree_coef; [|apply agree_add; [apply (agree_1_sqrt (g i) (unit_coef c) (A1 i) N)|apply agree_const]].
        intros [|k] _; cbn; ring. }
      pose proof (rep_inv n _ (2 * sqrt c) A2 ltac:(lra) (rep_add (S n) 0 _ _ R' (rep_const (S n) (sqrt c)))) as V.
      pose proof (rep_up (S n) _ (sqrt c) (rep_mul (S n) 1 0 _ _ D V)) as U.
      eapply rep_same; [|exact U]. intros i. eapply eventually_imp; [|apply (agree_1_sqrt (g i) (unit_coef c) (A1 i) N)].
      intros h Hh X. cbn beta in *. pose proof (sqrt_lt_R0 _ X).
      replace (g i h - c) with (sqrt (g i h) * sqrt (g i h) - sqrt c * sqrt c) by (rewrite !sqrt_sqrt by lra; ring). field. split; lra.
  Qed.
End Expansions.

(** * The solutions and the stages *)
Section System.
  Variables (f : nat -> expr) (on_q on_v : bool) (t0 : R) (q0 v0 : nat -> R).
  (** The methods. *)
  Context {M : Type}.
  Variables (c : M -> nat -> R) (a aʹ : M -> nat -> nat -> R).
  (** The stages of the methods, and a solution, as functions of the step; [None] is the solution. *)
  Variables (Q V : option (M * nat) -> nat -> R -> R).
  Definition T (i : option (M * nat)) (h : R) : R := match i with None => t0 + h | Some (m, i) => t0 + c m i * h end.
  Definition Ev (e : expr) (i : option (M * nat)) (h : R) : R := eval e (T i h) (fun v => Q i v h) (fun v => V i v h).
  Hypothesis Hf : forall v, defined (f v) t0 q0 v0 /\ uses on_q on_v (f v).
  Hypothesis HQ : on_q = true -> forall m i v h, Q (Some (m, i)) v h = q0 v + h * c m i * v0 v + h * h * sum_to i (fun j => a m i j * Ev (f v) (Some (m, j)) h).
  Hypothesis HV : forall m i v h, V (Some (m, i)) v h = v0 v + h * sum_to i (fun j => aʹ m i j * Ev (f v) (Some (m, j)) h).
  Hypothesis HSQ : on_q = true -> forall v, exists H, 0 < H /\ forall h, Rabs h < H -> derivable_pt_lim (Q None v) h (V None v h).
  Hypothesis HSV : forall v, exists H, 0 < H /\ forall h, Rabs h < H -> derivable_pt_lim (V None v) h (Ev (f v) None h).
  Hypothesis HQ0 : on_q = true -> forall v, Q None v 0 = q0 v.
  Hypothesis HV0 : forall v, V None v 0 = v0 v.
  Definition w (i : option (M * nat)) (t : tree) : R := match i with None => psi t | Some (m, i) => phi (c m) (a m) (aʹ m) t i end.
  Lemma w_root : forall i, w i Root = 1.
  Proof. intros [[m i]|]; reflexivity. Qed.
  Lemma w_merge : forall i t u, w i (merge t u) = w i t * w i u.
  Proof. intros [[m i]|] t u; [apply merge_phi|apply merge_psi]. Qed.
  Notation Rep := (rep w on_q on_v).

  (** Continuity. *)
  Lemma T_1 : forall i, agree 1 (T i) (unit_coef t0).
  Proof.
    intros i. apply agree_S. apply agree_0. destruct i as [[m i]|]; [exists (Rabs (c m i))|exists 1]; apply eventually_all; intros h Hh; cbn [T unit_coef].
    - replace ((t0 + c m i * h - t0) / h) with (c m i) by (field; exact Hh). lra.
    - replace ((t0 + h - t0) / h) with 1 by (field; exact Hh). rewrite Rabs_R1. lra.
  Qed.
  Lemma Ev_1 : forall i e, (forall v, on_q = true -> agree 1 (Q i v) (unit_coef (q0 v))) -> (forall v, agree 1 (V i v) (unit_coef (v0 v))) ->
    defined e t0 q0 v0 -> uses on_q on_v e ->
    agree 1 (Ev e i) (unit_coef (eval e t0 q0 v0)).
  Proof.
    intros i e AQ AV. unfold Ev. induction e as [x| |v|v|e1 IH1 e2 IH2|e1 IH1 e2 IH2|e IH|e IH]; cbn [eval defined uses]; intros D U.
    - apply agree_const.
    - apply T_1.
    - apply AQ, U.
    - apply AV.
    - eapply agree_coef; [|apply agree_add; [apply IH1; tauto|apply IH2; tauto]]. intros [|k] H; [reflexivity|lia].
    - eapply agree_coef; [|apply agree_mul; [apply IH1; tauto|apply IH2; tauto]]. intros [|k] H; [unfold cauchy, sum_to; cbn; ring|lia].
    - eapply agree_coef; [|apply (agree_1_inv _ _ (IH (proj1 D) U))]; [intros [|k] H; [reflexivity|lia]|exact (proj2 D)].
    - eapply agree_coef; [|apply (agree_1_sqrt _ _ (IH (proj1 D) U))]; [intros [|k] H; [reflexivity|lia]|exact (proj2 D)].
  Qed.
  Lemma up_1 : forall x (g : R -> R), agree 0 g (fun _ => 0) -> agree 1 (fun h => x + h * g h) (unit_coef x).
  Proof. intros x g A. eapply agree_coef; [|apply agree_up, A]. intros [|k] H; [reflexivity|lia]. Qed.
  Lemma QV_1 : forall i v, (on_q = true -> agree 1 (Q i v) (unit_coef (q0 v))) /\ agree 1 (V i v) (unit_coef (v0 v)).
  Proof.
    intros [[m i]|].
    - induction i as [i IH] using lt_wf_ind. intros v.
      assert (B : forall x : nat -> R, agree 0 (fun h => sum_to i (fun j => x j * Ev (f v) (Some (m, j)) h)) (fun _ => 0)).
      { intros x. eapply agree_coef; [|apply agree_sum with (s := fun j k => x j * unit_coef (eval (f v) t0 q0 v0) k)]; [intros k H; lia|].
        intros j Hj. apply agree_scal. apply (agree_le 0 1); [lia|]. apply Ev_1; [intros u; apply IH, Hj|intros u; apply IH, Hj|apply Hf|apply Hf]. }
      split; [intros OQ|].
      + eapply agree_same; [apply eventually_all; intros h _; symmetry; apply (HQ OQ)|].
        eapply agree_same; [|apply (up_1 (q0 v) (fun h => c m i * v0 v + h * sum_to i (fun j => a m i j * Ev (f v) (Some (m, j)) h)))].
        * apply eventually_all. intros h _. ring.
        * eapply agree_coef; [|apply (agree_le 0 1 _ _ ltac:(lia) (up_1 (c m i * v0 v) _ (B (a m i))))]. intros k H; lia.
      + eapply agree_same; [apply eventually_all; intros h _; symmetry; apply HV|]. apply (up_1 _ _ (B (aʹ m i))).
    - intros v.
      assert (E : forall (y g : R -> R) y0, derivable_pt_lim y 0 (g 0) -> y 0 = y0 -> agree 1 y (unit_coef y0)).
      { intros y g y0 D Y. apply agree_S. apply agree_0. exists (Rabs (g 0) + 1). destruct (D 1 Rlt_0_1) as [d Hd]. exists (d / 2).
        pose proof (cond_pos d). split; [lra|]. intros h Hh. assert (h <> 0) by (intros ->; rewrite Rabs_R0 in Hh; lra).
        specialize (Hd h ltac:(assumption) ltac:(lra)). rewrite Rplus_0_l, Y in Hd. cbn [unit_coef].
        pose proof (Rabs_triang ((y h - y0) / h - g 0) (g 0)) as X. replace ((y h - y0) / h - g 0 + g 0) with ((y h - y0) / h) in X by ring. lra. }
      split.
      + intros OQ. destruct (HSQ OQ v) as (H & HH & D). exact (E _ (V None v) _ (D 0 ltac:(rewrite Rabs_R0; exact HH)) (HQ0 OQ v)).
      + destruct (HSV v) as (H & HH & D). exact (E _ (Ev (f v) None) _ (D 0 ltac:(rewrite Rabs_R0; exact HH)) (HV0 v)).
  Qed.
  Lemma Ev_1' : forall e i, defined e t0 q0 v0 -> uses on_q on_v e -> agree 1 (Ev e i) (unit_coef (eval e t0 q0 v0)).
  Proof. intros e i D U. apply Ev_1; [intros v; apply QV_1|intros v; apply QV_1|exact D|exact U]. Qed.
  (** Expressions. *)
  Lemma rep_expr : forall n e, (forall v, on_q = true -> Rep (S n) 0 (fun i => Q i v)) -> (forall v, on_v = true -> Rep (S n) 0 (fun i => V i v)) ->
    Rep (S n) 0 T -> defined e t0 q0 v0 -> uses on_q on_v e -> Rep (S n) 0 (Ev e).
  Proof.
    intros n e RQ RV RT. induction e as [x| |v|v|e1 IH1 e2 IH2|e1 IH1 e2 IH2|e IH|e IH]; intros D U; cbn in D, U.
    - apply rep_const. exact w_root.
    - exact RT.
    - apply RQ, U.
    - apply RV, U.
    - apply (rep_add w on_q on_v (S n) 0 (Ev e1) (Ev e2)); tauto.
    - apply (rep_mul w on_q on_v w_merge (S n) 0 0 (Ev e1) (Ev e2)); tauto.
    - apply (rep_inv w on_q on_v w_root w_merge n (Ev e) (eval e t0 q0 v0)); [intros i; apply Ev_1'; tauto|tauto|tauto].
    - apply (rep_sqrt w on_q on_v w_root w_merge n (Ev e) (eval e t0 q0 v0)); [intros i; apply Ev_1'; tauto|tauto|tauto].
  Qed.
  (** The time. *)
  Lemma rep_T : forall n, Rep (S n) 0 T.
  Proof.
    intros n. exists (fun k => match k with O => [(Root, t0)] | S O => [(Leaf Root, 1)] | _ => [] end). split.
    - intros [|[|k]] t x; [intros [E|[]]|intros [E|[]]|intros []]; injection E as <- <-; cbn; auto.
    - intros i. apply (agree_same (S n) (fun h => t0 + h * (match i with None => 1 | Some (m, i) => c m i end))).
      { apply eventually_all. intros h _. destruct i as [[m i]|]; cbn; ring. }
      eapply agree_coef; [|apply agree_up, agree_const]. intros [|[|k]] _; destruct i as [[m i]|]; cbn; ring.
  Qed.
  (** The tables for the velocities and the positions, from that of [f]. *)
  Definition v_table (v : nat) (r : nat -> list (tree * R)) (k : nat) : list (tree * R) :=
    match k with O => [(Root, v0 v)] | S k => map (fun '(t, x) => (GraftV Root t, x)) (r k) end.
  Definition q_table (v : nat) (r : nat -> list (tree * R)) (k : nat) : list (tree * R) :=
    match k with O => [(Root, q0 v)] | S O => [(Leaf Root, v0 v)] | S (S k) => map (fun '(t, x) => (GraftQ Root t, x)) (r k) end.
  Lemma stage_sum : forall n m i v r (x : nat -> R), (forall j, agree n (Ev (f v) j) (fun k => total (w j) (r k))) ->
    agree n (fun h => sum_to i (fun j => x j * Ev (f v) (Some (m, j)) h)) (fun k => total (fun t => sum_to i (fun j => x j * phi (c m) (a m) (aʹ m) t j)) (r k)).
  Proof.
    intros n m i v r x A. eapply agree_coef; [|apply agree_sum with (s := fun j k => x j * total (w (Some (m, j))) (r k))].
    - intros k _. cbn beta. apply total_sum.
    - intros j Hj. apply agree_scal, A.
  Qed.
  Lemma exact_V : forall n v (s : nat -> R), agree n (Ev (f v) None) s -> agree (S n) (V None v) (fun k => match k with O => v0 v | S k => s k / INR (S k) end).
  Proof.
    intros n v s A. destruct (HSV v) as (H & HH & D). rewrite <- (HV0 v).
    apply (agree_integral n (V None v) (Ev (f v) None) _ H HH); [intros h Hh; apply D, Hh|exact A].
  Qed.
  Lemma exact_Q : forall n v (s : nat -> R), on_q = true -> agree n (Ev (f v) None) s ->
    agree (S (S n)) (Q None v) (fun k => match k with O => q0 v | S O => v0 v | S (S k) => s k / (INR (S k) * INR (S (S k))) end).
  Proof.
    intros n v s OQ A. apply exact_V in A. destruct (HSQ OQ v) as (H & HH & D).
    pose proof (agree_integral (S n) (Q None v) (V None v) _ H HH D A) as B. rewrite (HQ0 OQ v) in B.
    eapply agree_coef; [|exact B]. intros [|[|k]] _; cbn beta iota; [reflexivity|cbn; field|]. field. split; apply not_0_INR; discriminate.
  Qed.
  Lemma V_expands : forall n v r, on_v = true -> expands w on_q on_v n 0 (Ev (f v)) r -> expands w on_q on_v (S n) 0 (fun i => V i v) (v_table v r).
  Proof.
    intros n v r OV (O & A). split.
    - intros [|k] t x In; cbn in In; [destruct In as [E|[]]; injection E as <- <-; cbn; auto|].
      apply in_map_iff in In. destruct In as ([u y] & E & In). injection E as <- <-. destruct (O _ _ _ In). cbn. split; [lia|auto].
    - intros [[m i]|].
      + eapply agree_same; [apply eventually_all; intros h _; symmetry; apply HV|].
        eapply agree_coef; [|apply agree_up, (stage_sum n m i v r (aʹ m i) A)]. intros [|k] _; cbn [v_table total w phi]; [ring|].
        rewrite (total_map _ (fun t => sum_to i (fun j => aʹ m i j * phi (c m) (a m) (aʹ m) t j)) 1); [ring|]. intros t x _. cbn. reflexivity.
      + eapply agree_coef; [|apply exact_V, A]. intros [|k] _; cbn [v_table total w psi]; [ring|].
        rewrite (total_map _ psi (/ INR (S k))); [change (w None) with psi; unfold Rdiv; ring|]. intros t x In. destruct (O _ _ _ In) as [E _]. cbn [w psi]. rewrite E.
        replace (k + 1 + 0)%nat with (S k) by lia. unfold Rdiv. ring.
  Qed.
  Lemma Q_expands : forall n v r, on_q = true -> expands w on_q on_v n 0 (Ev (f v)) r -> expands w on_q on_v (S (S n)) 0 (fun i => Q i v) (q_table v r).
  Proof.
    intros n v r OQ (O & A). split.
    - intros [|[|k]] t x In; cbn in In; [destruct In as [E|[]]; injection E as <- <-; cbn; auto|destruct In as [E|[]]; injection E as <- <-; cbn; auto|].
      apply in_map_iff in In. destruct In as ([u y] & E & In). injection E as <- <-. destruct (O _ _ _ In). cbn. split; [lia|auto].
    - intros [[m i]|].
      + apply (agree_same (S (S n)) (fun h => q0 v + h * (c m i * v0 v + h * sum_to i (fun j => a m i j * Ev (f v) (Some (m, j)) h)))).
        { apply eventually_all. intros h _. rewrite (HQ OQ). ring. }
        eapply agree_coef; [|apply agree_up, agree_up, (stage_sum n m i v r (a m i) A)]. intros [|[|k]] _; cbn [q_table total w phi]; [ring|ring|].
        rewrite (total_map _ (fun t => sum_to i (fun j => a m i j * phi (c m) (a m) (aʹ m) t j)) 1); [ring|]. intros t x _. cbn. reflexivity.
      + eapply agree_coef; [|apply (exact_Q n v _ OQ (A None))]. intros [|[|k]] _; cbn [q_table total w psi]; [ring|ring|].
        rewrite (total_map _ psi (/ (INR (S k) * INR (S (S k))))); [change (w None) with psi; unfold Rdiv; ring|]. intros t x In. destruct (O _ _ _ In) as [E _]. cbn [w psi]. rewrite E.
        replace (k + 1 + 0)%nat with (S k) by lia. replace (S k + 1)%nat with (S (S k)) by lia. unfold Rdiv. ring.
  Qed.
  Lemma f_rep : forall n v, Rep (S n) 0 (Ev (f v)).
  Proof.
    induction n as [|n IH]; intros v.
    - apply (rep_1 w on_q on_v w_root _ (eval (f v) t0 q0 v0)). intros i. apply Ev_1'; apply Hf.
    - apply rep_expr; try apply Hf; [| |apply rep_T].
      + intros u OQ. destruct (IH u) as [r R]. apply (rep_le w on_q on_v (S (S n)) (S (S (S n)))); [lia|]. exists (q_table u r). apply Q_expands; assumption.
      + intros u OV. destruct (IH u) as [r R]. exists (v_table u r). apply V_expands; assumption.
  Qed.
  (** The step and the solution agree up to the order of the method. *)
  Lemma close : forall (g g' : R -> R) m s s' (d : nat -> R), agree m g s -> agree m g' s' -> (forall k, (k < m)%nat -> Rabs (s k - s' k) <= d k) ->
    exists C H, 0 < H /\ forall h, 0 < Rabs h <= H -> Rabs (g h - g' h) <= sum_to m (fun k => d k * Rabs h ^ k) + C * Rabs h ^ m.
  Proof.
    intros g g' m s s' d A B E.
    pose proof (agree_add m _ _ _ _ A (agree_scal m _ _ (-1) B)) as (C & H & HH & X). exists C, H. split; [exact HH|]. intros h Hh.
    specialize (X h Hh). cbn beta in X. set (S := sum_to m (fun j => (s j + -1 * s' j) * h ^ j)) in *.
    assert (Y : Rabs S <= sum_to m (fun k => d k * Rabs h ^ k)).
    { eapply Rle_trans; [apply sums_abs|]. apply sums_le. intros k Hk. rewrite Rabs_mult, <- RPow_abs. apply Rmult_le_compat_r; [apply pow_le, Rabs_pos|].
      replace (s k + -1 * s' k) with (s k - s' k) by ring. apply E, Hk. }
    pose proof (Rabs_triang (g h + -1 * g' h - S) S) as Z. replace (g h + -1 * g' h - S + S) with (g h - g' h) in Z by ring. lra.
  Qed.
  (** A bound for a table. *)
  Fixpoint size (l : list (tree * R)) : R := match l with [] => 0 | (_, x) :: l => Rabs x + size l end.
  Lemma size_pos : forall l, 0 <= size l.
  Proof. induction l as [|[t x] l IH]; cbn; [lra|]. pose proof (Rabs_pos x). lra. Qed.
  Lemma total_within : forall w w' eps l, (forall t x, In (t, x) l -> Rabs (w t - w' t) <= eps) -> Rabs (total w l - total w' l) <= eps * size l.
  Proof.
    intros u u' eps l. induction l as [|[t x] l IH]; intros H; cbn [total size]; [rewrite Rminus_0_r, Rabs_R0; lra|].
    specialize (IH (fun t x I => H t x (or_intror I))). pose proof (H t x (or_introl eq_refl)) as X. rewrite Rmult_plus_distr_l.
    replace (x * u t + total u l - (x * u' t + total u' l)) with (x * (u t - u' t) + (total u l - total u' l)) by ring.
    eapply Rle_trans; [apply Rabs_triang|]. rewrite Rabs_mult. assert (Rabs x * Rabs (u t - u' t) <= Rabs x * eps) by (apply Rmult_le_compat_l; [apply Rabs_pos|exact X]). lra.
  Qed.
  Lemma total_scaled : forall (u : tree -> R) k l, total u l * k = total (fun t => u t * k) l.
  Proof. induction l as [|[t x] l IH]; cbn [total]; [ring|]. rewrite <- IH. ring. Qed.
  (** The sum of the sizes of the first tables bounds the sum of the errors. *)
  Lemma sizes : forall eps (r : nat -> list (tree * R)) n j h, 0 <= eps -> Rabs h <= 1 -> (1 <= j)%nat ->
    sum_to n (fun k => eps * size (r k) * Rabs h ^ (j + k)) <= eps * sum_to n (fun k => size (r k)) * Rabs h.
  Proof.
    intros eps r n j h E H J. replace (eps * sum_to n (fun k => size (r k)) * Rabs h) with ((eps * Rabs h) * sum_to n (fun k => size (r k))) by ring.
    rewrite <- sum_to_scal. apply sums_le. intros k _. destruct j as [|j]; [lia|]. cbn [plus pow].
    assert (P : Rabs h ^ (j + k) <= 1) by (rewrite <- (pow1 (j + k)); apply pow_incr; split; [apply Rabs_pos|exact H]).
    pose proof (Rabs_pos h). pose proof (size_pos (r k)). replace (eps * size (r k) * (Rabs h * Rabs h ^ (j + k))) with ((eps * Rabs h * size (r k)) * Rabs h ^ (j + k)) by ring.
    rewrite <- (Rmult_1_r (eps * Rabs h * size (r k))) at 2. apply Rmult_le_compat_l; [|exact P]. apply Rmult_le_pos; [apply Rmult_le_pos; assumption|assumption].
  Qed.
  Lemma velocity_order_within : forall p v, (1 <= p)%nat -> exists K, 0 <= K /\ forall m n bʹ eps, 0 <= eps ->
    velocity_conditions_within eps on_q on_v n (c m) (a m) (aʹ m) bʹ p -> exists C H, 0 < H /\ forall h, 0 < Rabs h <= H ->
    Rabs (v0 v + h * sum_to n (fun i => bʹ i * Ev (f v) (Some (m, i)) h) - V None v h) <= eps * K * Rabs h + C * Rabs h ^ (p + 1).
  Proof.
    intros p v Hp. destruct p as [|p']; [lia|]. destruct (f_rep p' v) as (r & O & A). replace (S p' + 1)%nat with (S (S p')) by lia.
    exists (sum_to (S p') (fun k => size (r k))). split; [apply sums_nonneg; intros; apply size_pos|]. intros m n bʹ eps He Hc.
    pose proof (close (fun h => v0 v + h * sum_to n (fun i => bʹ i * Ev (f v) (Some (m, i)) h)) (V None v) (S (S p')) _ _
      (fun k => match k with O => 0 | S k => eps * size (r k) end) (agree_up _ _ _ _ (stage_sum (S p') m n v r bʹ A)) (exact_V _ v _ (A None))) as X.
    destruct X as (C & H & HH & X).
    - intros [|k] Hk; cbn beta iota; [rewrite Rminus_diag_eq by reflexivity; rewrite Rabs_R0; lra|]. change (w None) with psi. unfold Rdiv. rewrite total_scaled.
      apply total_within. intros t x In. destruct (O _ _ _ In) as [E L]. specialize (Hc t L ltac:(lia)). rewrite E in Hc. replace (k + 1 + 0)%nat with (S k) in Hc by lia. exact Hc.
    - exists C, (Rmin 1 H). split; [apply Rmin_glb_lt; [lra|exact HH]|]. intros h [h0 h1]. pose proof (Rmin_l 1 H). pose proof (Rmin_r 1 H).
      specialize (X h ltac:(lra)). cbn beta in X. rewrite sum_to_S in X. cbn [pow] in X. pose proof (sizes eps r (S p') 1 h He ltac:(lra) ltac:(lia)) as Y. cbn [plus pow] in Y. cbn [pow]. lra.
  Qed.
  Lemma position_order_within : forall p v, (1 <= p)%nat -> on_q = true -> exists K, 0 <= K /\ forall m n b e eps, 0 <= eps -> Rabs (e - 1) <= eps ->
    position_conditions_within eps on_q on_v n (c m) (a m) (aʹ m) b p -> exists C H, 0 < H /\ forall h, 0 < Rabs h <= H ->
    Rabs (q0 v + h * e * v0 v + h * h * sum_to n (fun i => b i * Ev (f v) (Some (m, i)) h) - Q None v h) <= eps * K * Rabs h + C * Rabs h ^ (p + 1).
  Proof.
    intros p v Hp OQ. destruct p as [|p']; [lia|]. destruct (f_rep p' v) as (r & O & A). replace (S p' + 1)%nat with (S (S p')) by lia.
    assert (A' : forall i, agree p' (Ev (f v) i) (fun k => total (w i) (r k))) by (intros i; apply agree_pred, A).
    exists (Rabs (v0 v) + sum_to p' (fun k => size (r k))).
    split; [pose proof (sums_nonneg p' (fun k => size (r k)) ltac:(intros; apply size_pos)); pose proof (Rabs_pos (v0 v)); lra|]. intros m n b e eps He Ee Hc.
    pose proof (close (fun h => q0 v + h * (e * v0 v + h * sum_to n (fun i => b i * Ev (f v) (Some (m, i)) h))) (Q None v) (S (S p')) _ _
                  (fun k => match k with O => 0 | S O => eps * Rabs (v0 v) | S (S k) => eps * size (r k) end)
                  (agree_up _ _ _ _ (agree_up _ _ _ _ (stage_sum p' m n v r b A'))) (exact_Q p' v _ OQ (A' None))) as X.
    destruct X as (C & H & HH & X).
    - intros [|[|k]] Hk; cbn beta iota; [rewrite Rminus_diag_eq by reflexivity; rewrite Rabs_R0; lra| |].
      + replace (e * v0 v - v0 v) with ((e - 1) * v0 v) by ring. rewrite Rabs_mult. apply Rmult_le_compat_r; [apply Rabs_pos|exact Ee].
      + change (w None) with psi. unfold Rdiv. rewrite total_scaled. apply total_within. intros t x In. destruct (O _ _ _ In) as [E L]. specialize (Hc t L ltac:(lia)). rewrite E in Hc.
        replace (k + 1 + 0)%nat with (S k) in Hc by lia. replace (S k + 1)%nat with (S (S k)) in Hc by lia. exact Hc.
    - exists C, (Rmin 1 H). split; [apply Rmin_glb_lt; [lra|exact HH]|]. intros h [h0 h1]. pose proof (Rmin_l 1 H). pose proof (Rmin_r 1 H).
      specialize (X h ltac:(lra)). cbn beta in X. rewrite !sum_to_S in X. cbn [pow] in X. pose proof (sizes eps r p' 2 h He ltac:(lra) ltac:(lia)) as Y. cbn [plus pow] in Y. cbn [pow].
      replace (q0 v + h * e * v0 v + h * h * sum_to n (fun i => b i * Ev (f v) (Some (m, i)) h)) with
              (q0 v + h * (e * v0 v + h * sum_to n (fun i => b i * Ev (f v) (Some (m, i)) h))) by ring. lra.
  Qed.
  Lemma velocity_order : forall p m n bʹ, (1 <= p)%nat -> velocity_conditions on_q on_v n (c m) (a m) (aʹ m) bʹ p -> forall v, exists C H, 0 < H /\ forall h, 0 < Rabs h <= H ->
    Rabs (v0 v + h * sum_to n (fun i => bʹ i * Ev (f v) (Some (m, i)) h) - V None v h) <= C * Rabs h ^ (p + 1).
  Proof.
    intros p m n bʹ Hp Hc v. destruct (velocity_order_within p v Hp) as (K & _ & X). destruct (X m n bʹ 0 (Rle_refl 0)) as (C & H & HH & Y).
    - intros t L O. rewrite (Hc t L O), Rminus_diag_eq by reflexivity. rewrite Rabs_R0. lra.
    - exists C, H. split; [exact HH|]. intros h Hh. specialize (Y h Hh). lra.
  Qed.
  Lemma position_order : forall p m n b, (1 <= p)%nat -> on_q = true -> position_conditions on_q on_v n (c m) (a m) (aʹ m) b p -> forall v, exists C H, 0 < H /\ forall h, 0 < Rabs h <= H ->
    Rabs (q0 v + h * v0 v + h * h * sum_to n (fun i => b i * Ev (f v) (Some (m, i)) h) - Q None v h) <= C * Rabs h ^ (p + 1).
  Proof.
    intros p m n b Hp OQ Hc v. destruct (position_order_within p v Hp OQ) as (K & _ & X). destruct (X m n b 1 0 (Rle_refl 0)) as (C & H & HH & Y).
    - rewrite Rminus_diag_eq by reflexivity. rewrite Rabs_R0. lra.
    - intros t L O. rewrite (Hc t L O), Rminus_diag_eq by reflexivity. rewrite Rabs_R0. lra.
    - exists C, H. split; [exact HH|]. intros h Hh. specialize (Y h Hh). rewrite Rmult_1_r in Y. lra.
  Qed.
End System.
