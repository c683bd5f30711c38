(** Rules of derivation for functions of the time with values in R and in [R3]. *)
From Coq Require Import Reals Lra.
From Verif Require Import Geometry_Model Geometry_Proofs Geometry_Proofs2.
Open Scope R_scope.

Lemma d_eq f x l l' : derivable_pt_lim f x l -> l = l' -> derivable_pt_lim f x l'.
Proof. now intros ? <-. Qed.
Lemma d_const a x : derivable_pt_lim (fun _ => a) x 0.
Proof. apply derivable_pt_lim_const. Qed.
Lemma d_id x : derivable_pt_lim (fun t => t) x 1.
Proof. apply derivable_pt_lim_id. Qed.
Lemma d_plus f g x f' g' : derivable_pt_lim f x f' -> derivable_pt_lim g x g' ->
  derivable_pt_lim (fun t => f t + g t) x (f' + g').
Proof. apply derivable_pt_lim_plus. Qed.
Lemma d_minus f g x f' g' : derivable_pt_lim f x f' -> derivable_pt_lim g x g' ->
  derivable_pt_lim (fun t => f t - g t) x (f' - g').
Proof. apply derivable_pt_lim_minus. Qed.
Lemma d_opp f x f' : derivable_pt_lim f x f' -> derivable_pt_lim (fun t => - f t) x (- f').
Proof. apply derivable_pt_lim_opp. Qed.
Lemma d_mult f g x f' g' : derivable_pt_lim f x f' -> derivable_pt_lim g x g' ->
  derivable_pt_lim (fun t => f t * g t) x (f' * g x + f x * g').
Proof. apply derivable_pt_lim_mult. Qed.
Lemma d_inv f x f' : derivable_pt_lim f x f' -> f x <> 0 ->
  derivable_pt_lim (fun t => / f t) x (- f' / (f x * f x)).
Proof.
  intros F N. eapply derivable_pt_lim_ext; [|apply (d_eq (fun t => 1 / f t) x ((0 * f x - f' * 1) / (f x)²))].
  - intros t. cbn beta. unfold Rdiv. ring.
  - now apply (derivable_pt_lim_div (fun _ => 1) f); [apply d_const|auto|].
  - unfold Rsqr, Rdiv. ring.
Qed.
Lemma d_comp f g x f' g' : derivable_pt_lim f x f' -> derivable_pt_lim g (f x) g' ->
  derivable_pt_lim (fun t => g (f t)) x (g' * f').
Proof. intros F G. exact (derivable_pt_lim_comp f g x f' g' F G). Qed.

(** Vectors *)
Lemma v_ext f g t f' : (forall s, f s = g s) -> has_derivative f t f' -> has_derivative g t f'.
Proof.
  intros E (X & Y & Z). repeat split; (eapply derivable_pt_lim_ext; [|eassumption]); intros s; cbn beta; now rewrite E.
Qed.
Lemma v_eq f t f' g' : has_derivative f t f' -> f' = g' -> has_derivative f t g'.
Proof. now intros ? <-. Qed.
Lemma v_const a t : has_derivative (fun _ => a) t zero3.
Proof. repeat split; apply d_const. Qed.
Lemma v_add f g t f' g' : has_derivative f t f' -> has_derivative g t g' ->
  has_derivative (fun s => add3 (f s) (g s)) t (add3 f' g').
Proof. intros (F1 & F2 & F3) (G1 & G2 & G3). repeat split; cbn [cx cy cz add3]; now apply d_plus. Qed.
Lemma v_sub f g t f' g' : has_derivative f t f' -> has_derivative g t g' ->
  has_derivative (fun s => sub3 (f s) (g s)) t (sub3 f' g').
Proof. apply sub_derivative. Qed.
Lemma v_opp f t f' : has_derivative f t f' -> has_derivative (fun s => opp3 (f s)) t (opp3 f').
Proof. intros (F1 & F2 & F3). repeat split; cbn [cx cy cz opp3]; now apply d_opp. Qed.
Lemma v_scal a f t a' f' : derivable_pt_lim a t a' -> has_derivative f t f' ->
  has_derivative (fun s => scal3 (a s) (f s)) t (add3 (scal3 a' (f t)) (scal3 (a t) f')).
Proof. intros A (F1 & F2 & F3). repeat split; cbn [cx cy cz scal3 add3]; now apply d_mult. Qed.
Lemma v_cross f g t f' g' : has_derivative f t f' -> has_derivative g t g' ->
  has_derivative (fun s => Cross (f s) (g s)) t (add3 (Cross f' (g t)) (Cross (f t) g')).
Proof.
  intros (F1 & F2 & F3) (G1 & G2 & G3). unfold Cross, add3. cbn [cx cy cz].
  repeat split; cbn [cx cy cz].
  - eapply d_eq; [apply d_minus; apply d_mult; eassumption|]. cbn [cx cy cz]. ring.
  - eapply d_eq; [apply d_minus; apply d_mult; eassumption|]. cbn [cx cy cz]. ring.
  - eapply d_eq; [apply d_minus; apply d_mult; eassumption|]. cbn [cx cy cz]. ring.
Qed.
Lemma v_dot f g t f' g' : has_derivative f t f' -> has_derivative g t g' ->
  derivable_pt_lim (fun s => Dot (f s) (g s)) t (Dot f' (g t) + Dot (f t) g').
Proof. apply dot_derivative. Qed.
Lemma v_norm f t f' : has_derivative f t f' -> f t <> zero3 ->
  derivable_pt_lim (fun s => Norm (f s)) t (Dot (f t) f' / Norm (f t)).
Proof.
  intros F N. pose proof (norm2_pos _ N) as P. pose proof (norm_pos _ N) as P'.
  eapply d_eq.
  - apply (d_comp (fun s => Norm2 (f s)) sqrt); [apply (v_dot f f); eassumption|]. now apply derivable_pt_lim_sqrt.
  - change (sqrt (Norm2 (f t))) with (Norm (f t)). rewrite (dot_comm f'). field. lra.
Qed.
Lemma v_unique f t f' g' : has_derivative f t f' -> has_derivative f t g' -> f' = g'.
Proof.
  intros (F1 & F2 & F3) (G1 & G2 & G3). destruct f' as [a b c], g' as [a1 b1 c1]. cbn [Geometry_Model.cx Geometry_Model.cy Geometry_Model.cz] in *.
  apply mk3_eq; eapply uniqueness_limite; eassumption.
Qed.

(** A vector divided by its norm. *)
Lemma v_normalize f t f' : has_derivative f t f' -> f t <> zero3 ->
  has_derivative (fun s => Normalize (f s)) t
    (div3 (sub3 (scal3 (Norm2 (f t)) f') (scal3 (Dot (f t) f') (f t))) (Norm (f t) ^ 3)).
Proof.
  intros F N. pose proof (norm_pos _ N) as P. pose proof (norm_sq (f t)) as S.
  apply (v_ext (fun s => scal3 (/ Norm (f s)) (f s))).
  { intros s. unfold Normalize, scal3, div3. apply mk3_eq; unfold Rdiv; ring. }
  eapply v_eq.
  - apply v_scal; [|exact F]. apply d_inv; [eapply v_norm; eassumption|apply Rgt_not_eq; exact P].
  - rewrite <- S. unfold add3, div3, sub3, scal3. cbn [cx cy cz]. apply mk3_eq; field; lra.
Qed.
