(** Proofs for the rocket equation. *)
From Coq Require Import Reals Lra Lia.
From Verif Require Import Geometry_Model Manoeuvre_Model.
Open Scope R_scope.

Lemma quotient_ok a b : b <> 0 -> quotient a b = Some (a / b).
Proof. intros H. unfold quotient. destruct (Req_EM_T b 0); [contradiction|reflexivity]. Qed.
Lemma Norm_pos v : 0 <= Norm v. Proof. apply sqrt_pos. Qed.

Definition powered (mass : R) (b : burn) : Prop := 0 < mass /\ 0 < thrust b /\ 0 < specific_impulse b.

Section rocket.
  Variables (mass : R) (b : burn).
  Hypothesis P : powered mass b.
  Local Notation sp := (Norm (Δv b)).
  Local Notation isp := (specific_impulse b).
  Local Notation th := (thrust b).

  Lemma duration_eq : duration mass b = Some (mass * isp * (1 - exp (- sp / isp)) / th).
  Proof.
    destruct P as (P1 & P2 & P3). unfold duration. destruct (Req_EM_T sp 0) as [E|E].
    - f_equal. rewrite E. unfold Rdiv at 2. rewrite Ropp_0, Rmult_0_l, exp_0. field. lra.
    - rewrite quotient_ok by lra. cbn [bind]. rewrite quotient_ok by lra. reflexivity.
  Qed.
  Lemma mass_flow_eq : mass_flow b = Some (th / isp).
  Proof. destruct P as (P1 & P2 & P3). unfold mass_flow. apply quotient_ok. lra. Qed.
  Lemma final_mass_eq : final_mass mass b = Some (mass * exp (- sp / isp)).
  Proof.
    unfold final_mass. rewrite mass_flow_eq, duration_eq. cbn [bind]. f_equal. destruct P as (P1 & P2 & P3).
    field. split; lra.
  Qed.
  Lemma exp_half x : exp x = exp (x / 2) * exp (x / 2).
  Proof. rewrite <- exp_plus. f_equal. lra. Qed.
  Lemma time_to_half_eq : time_to_half_Δv mass b = Some (mass * isp * (1 - exp (- sp / isp / 2)) / th).
  Proof.
    unfold time_to_half_Δv. rewrite final_mass_eq. cbn [bind]. destruct P as (P1 & P2 & P3). rewrite quotient_ok by lra. cbn [bind].
    rewrite quotient_ok by lra. f_equal. replace (mass * exp (- sp / isp) / mass) with (exp (- sp / isp)) by (field; lra).
    rewrite (exp_half (- sp / isp)), sqrt_square by (apply Rlt_le, exp_pos). field. lra.
  Qed.
  Lemma exponent_sign : - sp / isp <= 0.
  Proof.
    destruct P as (P1 & P2 & P3). pose proof (Norm_pos (Δv b)). pose proof (Rinv_0_lt_compat _ P3) as H0.
    unfold Rdiv. rewrite <- Ropp_mult_distr_l. pose proof (Rmult_le_pos _ _ H (Rlt_le _ _ H0)). lra.
  Qed.
  Lemma exp_le_1 x : x <= 0 -> exp x <= 1.
  Proof. intros H. rewrite <- exp_0. destruct H as [H| ->]; [left; apply exp_increasing; exact H|right; reflexivity]. Qed.
  Lemma final_mass_bounds : 0 < mass * exp (- sp / isp) <= mass.
  Proof.
    destruct P as (P1 & _). pose proof (exp_pos (- sp / isp)). pose proof (exp_le_1 _ exponent_sign). split; nra.
  Qed.
  Lemma half_bounds : 0 <= mass * isp * (1 - exp (- sp / isp / 2)) / th <= mass * isp * (1 - exp (- sp / isp)) / th.
  Proof.
    destruct P as (P1 & P2 & P3). pose proof exponent_sign. pose proof (exp_le_1 (- sp / isp / 2) ltac:(lra)).
    pose proof (exp_pos (- sp / isp / 2)). set (e := exp (- sp / isp / 2)) in *.
    assert (K : 0 < mass * isp / th) by (apply Rdiv_lt_0_compat; nra).
    rewrite (exp_half (- sp / isp)). fold e.
    replace (mass * isp * (1 - e) / th) with (mass * isp / th * (1 - e)) by (field; lra).
    replace (mass * isp * (1 - e * e) / th) with (mass * isp / th * (1 - e * e)) by (field; lra). split; [nra|].
    apply Rmult_le_compat_l; [lra|]. nra.
  Qed.

  (** ** Integration of the thrust *)

  (** The speed gained [u] after the start, for a flow and a mass. *)
  Definition gained (u : R) : R := - isp * ln (1 - u * (th / isp) / mass).

  Lemma gained_derivative u : 0 < mass - u * (th / isp) -> derivable_pt_lim gained u (th / (mass - u * (th / isp))).
  Proof.
    destruct P as (P1 & P2 & P3). intros M. unfold gained.
    assert (A : 0 < 1 - u * (th / isp) / mass).
    { replace (1 - u * (th / isp) / mass) with ((mass - u * (th / isp)) / mass) by (field; lra). apply Rdiv_lt_0_compat; lra. }
    replace (th / (mass - u * (th / isp))) with (- isp * ((/ (1 - u * (th / isp) / mass)) * (- (th / isp) / mass))).
    2:{ assert (Z : 0 < (mass - u * (th / isp)) * isp) by (apply Rmult_lt_0_compat; lra).
        replace ((mass - u * (th / isp)) * isp) with (mass * isp - u * th) in Z by (field; lra). field; repeat split; lra. }
    apply (derivable_pt_lim_scal (fun v => ln (1 - v * (th / isp) / mass)) (- isp) u).
    apply (derivable_pt_lim_comp (fun v => 1 - v * (th / isp) / mass) ln u).
    - replace (- (th / isp) / mass) with (0 - 1 * ((th / isp) / mass)) by (field; lra).
      apply (derivable_pt_lim_minus (fun _ => 1) (fun v => v * (th / isp) / mass)); [apply derivable_pt_lim_const|].
      assert (E : forall v, v * (th / isp) / mass = v * ((th / isp) / mass)) by (intros v; unfold Rdiv; ring).
      intros eps He. destruct (derivable_pt_lim_mult (fun v => v) (fun _ => th / isp / mass) u 1 0 (derivable_pt_lim_id u) (derivable_pt_lim_const _ u) eps He) as [d D].
      exists d. intros h H1 H2. rewrite !E. specialize (D h H1 H2). unfold mult_fct in D.
      replace (1 * (th / isp / mass) + u * 0) with (1 * (th / isp / mass)) in D by ring. exact D.
    - apply derivable_pt_lim_ln. exact A.
  Qed.

  Lemma gained_0 : gained 0 = 0.
  Proof. unfold gained. replace (1 - 0 * (th / isp) / mass) with 1 by (unfold Rdiv; ring). rewrite ln_1. ring. Qed.
  Lemma gained_at e : gained (mass * isp * (1 - exp (e / isp)) / th) = - e.
  Proof.
    destruct P as (P1 & P2 & P3). unfold gained.
    replace (1 - mass * isp * (1 - exp (e / isp)) / th * (th / isp) / mass) with (exp (e / isp)) by (field; repeat split; lra).
    rewrite ln_exp. field. lra.
  Qed.

  (** Any motion driven by the thrust alone gains that speed. *)
  Lemma integral_unique (v : R -> R) (k ti d : R) :
    (forall t, ti <= t <= ti + d -> continuity_pt v t) -> (forall u, 0 <= u <= d -> 0 < mass - u * (th / isp)) ->
    (forall t, ti < t < ti + d -> derivable_pt_lim v t (k * (th / (mass - (t - ti) * (th / isp))))) ->
    forall t, ti <= t <= ti + d -> v t - v ti = k * gained (t - ti).
  Proof.
    intros C M D t Ht.
    set (f := fun x => v x - k * gained (x - ti)).
    assert (G : forall x, ti <= x <= ti + d -> derivable_pt_lim (fun x => k * gained (x - ti)) x (k * (th / (mass - (x - ti) * (th / isp))))).
    { intros x Hx. apply (derivable_pt_lim_scal (fun x => gained (x - ti)) k x).
      replace (th / (mass - (x - ti) * (th / isp))) with (th / (mass - (x - ti) * (th / isp)) * (1 - 0)) by ring.
      apply (derivable_pt_lim_comp (fun x => x - ti) gained x).
      - apply (derivable_pt_lim_minus (fun x => x) (fun _ => ti)); [apply derivable_pt_lim_id|apply derivable_pt_lim_const].
      - apply gained_derivative. apply M. lra. }
    assert (DF : forall x, ti < x < ti + d -> derivable_pt_lim f x 0).
    { intros x Hx. replace 0 with (k * (th / (mass - (x - ti) * (th / isp))) - k * (th / (mass - (x - ti) * (th / isp)))) by ring.
      apply (derivable_pt_lim_minus v (fun x => k * gained (x - ti))); [apply D; exact Hx|apply G; lra]. }
    assert (CF : forall x, ti <= x <= ti + d -> continuity_pt f x).
    { intros x Hx. apply (continuity_pt_minus v (fun x => k * gained (x - ti))); [apply C; exact Hx|].
      apply derivable_continuous_pt. exists (k * (th / (mass - (x - ti) * (th / isp)))). apply G. exact Hx. }
    assert (PR : forall x, ti < x < ti + d -> derivable_pt f x) by (intros x Hx; exists 0; apply DF; exact Hx).
    pose proof (null_derivative_loc f ti (ti + d) PR CF) as K.
    assert (Z : forall (x : R) (Q : ti < x < ti + d), derive_pt f x (PR x Q) = 0).
    { intros x Q. apply (derive_pt_eq_0 _ _ _ (PR x Q)). apply DF. exact Q. }
    specialize (K Z t Ht). unfold f in K. replace (ti - ti) with 0 in K by ring. rewrite gained_0 in K. lra.
  Qed.
End rocket.

(** A velocity driven by the thrust alone: componentwise, its derivative is the acceleration of the burn. *)
Definition component (i : nat) (v : R3) : R := match i with O => cx v | S O => cy v | _ => cz v end.
Definition driven (v : R -> R3) (a : R -> R3) (ti tf : R) : Prop := forall i,
  (forall t, ti <= t <= tf -> continuity_pt (fun t => component i (v t)) t) /\
  (forall t, ti < t < tf -> derivable_pt_lim (fun t => component i (v t)) t (component i (a t))).

Lemma component_scal i k v : component i (scal3 k v) = k * component i v. Proof. destruct i as [|[|]]; reflexivity. Qed.
Lemma component_sub i u v : component i (sub3 u v) = component i u - component i v. Proof. destruct i as [|[|]]; reflexivity. Qed.
Lemma component_div i v k : component i (div3 v k) = component i v / k. Proof. destruct i as [|[|]]; reflexivity. Qed.
Lemma component_ext u v : (forall i, component i u = component i v) -> u = v.
Proof. intros H. destruct u, v. pose proof (H 0%nat). pose proof (H 1%nat). pose proof (H 2%nat). cbn in *. congruence. Qed.

Lemma Norm_zero v : Norm v = 0 -> v = mk3 0 0 0.
Proof.
  intros H. assert (N : Norm2 v = 0).
  { unfold Norm in H. apply sqrt_eq_0; [|exact H]. unfold Norm2. pose proof (Rle_0_sqr (cx v)). pose proof (Rle_0_sqr (cy v)). pose proof (Rle_0_sqr (cz v)). unfold Rsqr in *. lra. }
  destruct v as [x y z]. unfold Norm2 in N. cbn in *. pose proof (Rle_0_sqr x). pose proof (Rle_0_sqr y). pose proof (Rle_0_sqr z). unfold Rsqr in *.
  assert (x * x = 0) by lra. assert (y * y = 0) by lra. assert (z * z = 0) by lra.
  apply Rmult_integral in H3, H4, H5. f_equal; tauto.
Qed.
Lemma direction_Δv v : scal3 (Norm v) (NormalizeOrZero v) = v.
Proof.
  unfold NormalizeOrZero. destruct (Req_EM_T (Norm v) 0) as [E|E].
  - rewrite E. rewrite (Norm_zero v E). unfold scal3. cbn. f_equal; ring.
  - destruct v as [x y z]. unfold scal3, div3. cbn. f_equal; field; exact E.
Qed.

Lemma thrust_integral mass b ti tf d v : powered mass b -> duration mass b = Some d -> tf = ti + d ->
  driven v (ComputeIntrinsicAcceleration mass (thrust b) (thrust b / specific_impulse b) ti tf (direction b)) ti tf ->
  forall u, 0 <= u <= d -> sub3 (v (ti + u)) (v ti) = scal3 (gained mass b u) (direction b).
Proof.
  intros P ED -> D u Hu. apply component_ext. intros i. rewrite component_sub, component_scal.
  destruct (D i) as [C DV]. pose proof P as (P1 & P2 & P3).
  rewrite (duration_eq mass b P) in ED. injection ED as ED.
  assert (M : forall w, 0 <= w <= d -> 0 < mass - w * (thrust b / specific_impulse b)).
  { intros w Hw. pose proof (exp_pos (- Norm (Δv b) / specific_impulse b)) as EX.
    assert (K : 0 < thrust b / specific_impulse b) by (apply Rdiv_lt_0_compat; lra).
    assert (E : d * (thrust b / specific_impulse b) = mass * (1 - exp (- Norm (Δv b) / specific_impulse b))) by (rewrite <- ED; field; split; lra).
    assert (w * (thrust b / specific_impulse b) <= d * (thrust b / specific_impulse b)) by (apply Rmult_le_compat_r; lra). nra. }
  pose proof (integral_unique mass b P (fun t => component i (v t)) (component i (direction b)) ti d C M) as U.
  assert (DV' : forall t, ti < t < ti + d -> derivable_pt_lim (fun t => component i (v t)) t
    (component i (direction b) * (thrust b / (mass - (t - ti) * (thrust b / specific_impulse b))))).
  { intros t Ht. specialize (DV t Ht). unfold ComputeIntrinsicAcceleration in DV.
    destruct (Rle_dec ti t); [|lra]. destruct (Rle_dec t (ti + d)); [|lra]. rewrite component_div, component_scal in DV.
    replace (component i (direction b) * (thrust b / (mass - (t - ti) * (thrust b / specific_impulse b))))
      with (thrust b * component i (direction b) / (mass - (t - ti) * (thrust b / specific_impulse b))); [exact DV|].
    unfold Rdiv. ring. }
  specialize (U DV' (ti + u) ltac:(lra)). cbn beta in U. rewrite U. replace (ti + u - ti) with u by ring. ring.
Qed.

Lemma mass_remains mass b d w : powered mass b -> duration mass b = Some d -> w <= d -> 0 < mass - w * (thrust b / specific_impulse b).
Proof.
  intros P ED Hw. pose proof P as (P1 & P2 & P3). rewrite (duration_eq mass b P) in ED. injection ED as ED.
  pose proof (exp_pos (- Norm (Δv b) / specific_impulse b)) as EX.
  assert (K : 0 < thrust b / specific_impulse b) by (apply Rdiv_lt_0_compat; lra).
  assert (E : d * (thrust b / specific_impulse b) = mass * (1 - exp (- Norm (Δv b) / specific_impulse b))) by (rewrite <- ED; field; split; lra).
  assert (w * (thrust b / specific_impulse b) <= d * (thrust b / specific_impulse b)) by (apply Rmult_le_compat_r; lra). nra.
Qed.

Lemma driven_exists mass b ti d : powered mass b -> duration mass b = Some d ->
  driven (fun t => scal3 (gained mass b (t - ti)) (direction b))
    (ComputeIntrinsicAcceleration mass (thrust b) (thrust b / specific_impulse b) ti (ti + d) (direction b)) ti (ti + d).
Proof.
  intros P ED i. set (k := component i (direction b)).
  assert (D : forall t, t <= ti + d -> derivable_pt_lim (fun t => component i (scal3 (gained mass b (t - ti)) (direction b))) t
    (k * (thrust b / (mass - (t - ti) * (thrust b / specific_impulse b))))).
  { intros t Ht.
    assert (E : forall t, component i (scal3 (gained mass b (t - ti)) (direction b)) = k * gained mass b (t - ti)).
    { intros x. rewrite component_scal. fold k. ring. }
    intros eps He.
    assert (G : derivable_pt_lim (fun x => k * gained mass b (x - ti)) t (k * (thrust b / (mass - (t - ti) * (thrust b / specific_impulse b))))).
    { apply (derivable_pt_lim_scal (fun x => gained mass b (x - ti)) k t).
      replace (thrust b / (mass - (t - ti) * (thrust b / specific_impulse b))) with (thrust b / (mass - (t - ti) * (thrust b / specific_impulse b)) * (1 - 0)) by ring.
      apply (derivable_pt_lim_comp (fun x => x - ti) (gained mass b) t).
      - apply (derivable_pt_lim_minus (fun x => x) (fun _ => ti)); [apply derivable_pt_lim_id|apply derivable_pt_lim_const].
      - apply gained_derivative; [exact P|]. apply (mass_remains mass b d); [exact P|exact ED|lra]. }
    destruct (G eps He) as [dl DL]. exists dl. intros h H1 H2. rewrite !E. exact (DL h H1 H2). }
  split.
  - intros t Ht. apply derivable_continuous_pt. eexists. apply D. lra.
  - intros t Ht. unfold ComputeIntrinsicAcceleration. destruct (Rle_dec ti t); [|lra]. destruct (Rle_dec t (ti + d)); [|lra].
    rewrite component_div, component_scal. fold k.
    replace (thrust b * k / (mass - (t - ti) * (thrust b / specific_impulse b))) with (k * (thrust b / (mass - (t - ti) * (thrust b / specific_impulse b)))) by (unfold Rdiv; ring).
    apply D. lra.
Qed.

Lemma delivers mass b ti tf d v : powered mass b -> duration mass b = Some d -> tf = ti + d ->
  driven v (ComputeIntrinsicAcceleration mass (thrust b) (thrust b / specific_impulse b) ti tf (direction b)) ti tf ->
  sub3 (v tf) (v ti) = Δv b /\
  forall h, time_to_half_Δv mass b = Some h -> sub3 (v (ti + h)) (v ti) = scal3 (1 / 2) (Δv b).
Proof.
  intros P ED ET D. pose proof (thrust_integral mass b ti tf d v P ED ET D) as H.
  pose proof (half_bounds mass b P) as HB.
  assert (E1 := ED). rewrite (duration_eq mass b P) in E1. injection E1 as E1.
  assert (DN : 0 <= d) by lra. split.
  - subst tf. rewrite (H d ltac:(lra)). rewrite <- E1 at 1. rewrite (gained_at mass b P (- Norm (Δv b))), Ropp_involutive. apply direction_Δv.
  - intros h Hh. rewrite (time_to_half_eq mass b P) in Hh. injection Hh as Hh. rewrite H by lra. rewrite <- Hh at 1.
    replace (- Norm (Δv b) / specific_impulse b / 2) with ((- (Norm (Δv b) / 2)) / specific_impulse b) by (destruct P as (_ & _ & ?); field; lra).
    rewrite (gained_at mass b P), Ropp_involutive.
    transitivity (scal3 (1 / 2) (scal3 (Norm (Δv b)) (direction b))); [|unfold direction; rewrite direction_Δv; reflexivity].
    destruct (direction b) as [x y z]. unfold scal3. cbn. f_equal; field.
Qed.

(** ** Timings *)

Definition with_timing (b : burn) (t : timing) : burn := Burn (Δv b) t (thrust b) (specific_impulse b).

Lemma timings mass b t : powered mass b ->
  exists h d, initial_time mass (with_timing b (InitialTime t)) = Some t /\
    time_of_half_Δv mass (with_timing b (InitialTime t)) = Some h /\
    initial_time mass (with_timing b (TimeOfHalfΔv h)) = Some t /\
    time_of_half_Δv mass (with_timing b (TimeOfHalfΔv h)) = Some h /\
    final_time mass (with_timing b (InitialTime t)) = Some (t + d) /\ final_time mass (with_timing b (TimeOfHalfΔv h)) = Some (t + d) /\
    t <= h <= t + d.
Proof.
  intros P. set (b1 := with_timing b (InitialTime t)). assert (P1 : powered mass b1) by exact P.
  set (h := mass * specific_impulse b * (1 - exp (- Norm (Δv b) / specific_impulse b / 2)) / thrust b).
  set (b2 := with_timing b (TimeOfHalfΔv (t + h))). assert (P2 : powered mass b2) by exact P.
  pose proof (half_bounds mass b P) as HB.
  exists (t + h), (mass * specific_impulse b * (1 - exp (- Norm (Δv b) / specific_impulse b)) / thrust b).
  assert (H1 : time_to_half_Δv mass b1 = Some h) by exact (time_to_half_eq mass b1 P1).
  assert (H2 : time_to_half_Δv mass b2 = Some h) by exact (time_to_half_eq mass b2 P2).
  split; [reflexivity|]. split; [unfold time_of_half_Δv; cbn [b1 with_timing burn_timing]; fold b1; rewrite H1; reflexivity|].
  assert (I2 : initial_time mass b2 = Some t).
  { unfold initial_time. cbn [b2 with_timing burn_timing]. fold b2. rewrite H2. cbn [bind]. f_equal. ring. }
  split; [exact I2|]. split; [reflexivity|]. split.
  - unfold final_time. cbn [initial_time b1 with_timing burn_timing bind]. fold b1. rewrite (duration_eq mass b1 P1). reflexivity.
  - split; [|fold h in HB; lra]. change (with_timing b (TimeOfHalfΔv (t + h))) with b2. unfold final_time. rewrite I2. cbn [bind]. rewrite (duration_eq mass b2 P2). reflexivity.
Qed.

Lemma write_read mass b : powered mass b -> exists b', WriteRead mass b = Some b' /\
  initial_time mass b' = initial_time mass b /\ duration mass b' = duration mass b /\ final_mass mass b' = final_mass mass b /\
  time_of_half_Δv mass b' = time_of_half_Δv mass b /\ final_time mass b' = final_time mass b /\ direction b' = direction b.
Proof.
  intros P. unfold WriteRead. destruct b as [v [t|t] T I].
  - cbn [initial_time burn_timing bind]. eexists. split; [reflexivity|]. repeat split; reflexivity.
  - destruct (timings mass (Burn v (TimeOfHalfΔv t) T I) (t - mass * I * (1 - exp (- Norm v / I / 2)) / T) P) as (h & d & A1 & A2 & A3 & A4 & A5 & A6 & _).
    assert (E : h = t).
    { unfold with_timing in *; cbn [Δv thrust specific_impulse] in *. unfold time_of_half_Δv in A2. cbn [burn_timing] in A2.
      rewrite (time_to_half_eq mass (Burn v (InitialTime (t - mass * I * (1 - exp (- Norm v / I / 2)) / T)) T I)) in A2 by exact P.
      cbn [bind Δv thrust specific_impulse] in A2. injection A2 as A2. rewrite <- A2. ring. }
    subst h. unfold with_timing in *; cbn [Δv thrust specific_impulse] in *. rewrite A3. cbn [bind]. eexists. split; [reflexivity|].
    split; [congruence|]. split; [reflexivity|]. split; [reflexivity|]. split; [congruence|]. split; [congruence|reflexivity].
Qed.

(** Manœuvres of the old format had a direction and a duration. *)
Lemma Norm_scal k v : Norm (scal3 k v) = Rabs k * Norm v.
Proof.
  unfold Norm. replace (Norm2 (scal3 k v)) with (Rsqr k * Norm2 v) by (unfold Norm2, scal3, Rsqr; cbn; ring).
  rewrite sqrt_mult_alt by apply Rle_0_sqr. rewrite sqrt_Rsqr_abs. reflexivity.
Qed.

Lemma tsiolkovsky dir mass d T I t : 0 < mass -> 0 < T -> 0 < I -> 0 <= d -> 0 < mass - T / I * d -> Norm dir = 1 ->
  exists v, ComputeЦиолковскийΔv dir mass d T I = Some v /\ duration mass (Burn v t T I) = Some d /\
    final_mass mass (Burn v t T I) = Some (mass - T / I * d) /\ (0 < d -> direction (Burn v t T I) = dir).
Proof.
  intros PM PT PI PD PF ND. unfold ComputeЦиолковскийΔv. rewrite quotient_ok by lra. cbn [bind]. rewrite quotient_ok by lra. cbn [bind].
  eexists. split; [reflexivity|]. set (r := mass / (mass - T / I * d)). set (v := scal3 (ln r) (scal3 I dir)).
  assert (K : 0 < T / I) by (apply Rdiv_lt_0_compat; lra).
  assert (R1 : 1 <= r).
  { unfold r. apply (Rmult_le_reg_r (mass - T / I * d)); [exact PF|]. unfold Rdiv at 2. rewrite Rmult_assoc, Rinv_l by lra. nra. }
  assert (L0 : 0 <= ln r). { rewrite <- ln_1. destruct R1 as [R1| <-]; [left; apply ln_increasing; lra|right; reflexivity]. }
  assert (NV : Norm v = ln r * I).
  { unfold v. rewrite !Norm_scal, ND, !Rabs_right by lra. ring. }
  assert (P : powered mass (Burn v t T I)) by (repeat split; cbn; lra).
  assert (EX : exp (- Norm v / I) = (mass - T / I * d) / mass).
  { rewrite NV. replace (- (ln r * I) / I) with (- ln r) by (field; lra). rewrite exp_Ropp, exp_ln by lra. unfold r.
    assert (Z : 0 < (mass - T / I * d) * I) by (apply Rmult_lt_0_compat; lra).
    replace ((mass - T / I * d) * I) with (mass * I - T * d) in Z by (field; lra). field; repeat split; lra. }
  split; [|split].
  - rewrite (duration_eq mass _ P). cbn [Δv thrust specific_impulse]. rewrite EX. f_equal. field. repeat split; lra.
  - rewrite (final_mass_eq mass _ P). cbn [Δv thrust specific_impulse]. rewrite EX. f_equal. field. repeat split; lra.
  - intros HD. assert (R2 : 1 < r).
    { unfold r. apply (Rmult_lt_reg_r (mass - T / I * d)); [exact PF|]. unfold Rdiv at 2. rewrite Rmult_assoc, Rinv_l by lra. nra. }
    assert (L1 : 0 < ln r) by (rewrite <- ln_1; apply ln_increasing; lra).
    unfold direction. cbn [Δv]. unfold NormalizeOrZero. destruct (Req_EM_T (Norm v) 0) as [E|E]; [rewrite NV in E; nra|].
    rewrite NV. unfold v. destruct dir as [x y z]. unfold div3, scal3. cbn. f_equal; field; split; lra.
Qed.

(** The formulæ of the model of the flight plans (FlightPlan_Model.v). *)
Lemma flight_plan_formulæ mass b : powered mass b ->
  let root := exp (- Norm (Δv b) / (2 * specific_impulse b)) in let flow_rate := thrust b / specific_impulse b in
  0 < flow_rate /\ 0 < root <= 1 /\ mass_flow b = Some flow_rate /\
  duration mass b = Some (mass * (1 - root * root) / flow_rate) /\ time_to_half_Δv mass b = Some (mass * (1 - root) / flow_rate) /\
  final_mass mass b = Some (mass - flow_rate * (mass * (1 - root * root) / flow_rate)).
Proof.
  intros P root flow_rate. pose proof P as (P1 & P2 & P3).
  assert (E : root * root = exp (- Norm (Δv b) / specific_impulse b)).
  { unfold root. rewrite <- exp_plus. f_equal. field. lra. }
  assert (E' : root = exp (- Norm (Δv b) / specific_impulse b / 2)) by (unfold root; f_equal; field; lra).
  split; [apply Rdiv_lt_0_compat; lra|]. split; [split; [apply exp_pos|apply exp_le_1]|].
  { pose proof (exponent_sign mass b P) as X. replace (- Norm (Δv b) / (2 * specific_impulse b)) with (- Norm (Δv b) / specific_impulse b / 2) by (field; lra). lra. }
  split; [apply (mass_flow_eq mass b P)|]. rewrite E. split; [rewrite (duration_eq mass b P)|].
  - f_equal. unfold flow_rate. field. split; lra.
  - split; [rewrite (time_to_half_eq mass b P), <- E'|rewrite (final_mass_eq mass b P)]; f_equal; unfold flow_rate; field; repeat split; lra.
Qed.

(** No thrust and no Δv. *)
Lemma no_thrust mass isp t : isp <> 0 -> 0 < mass ->
  duration mass (Burn (mk3 0 0 0) t 0 isp) = Some 0 /\ final_mass mass (Burn (mk3 0 0 0) t 0 isp) = Some mass /\
  time_to_half_Δv mass (Burn (mk3 0 0 0) t 0 isp) = None.
Proof.
  intros HI HM. assert (N : Norm (mk3 0 0 0) = 0).
  { unfold Norm, Norm2. cbn. replace (0 * 0 + 0 * 0 + 0 * 0) with 0 by ring. apply sqrt_0. }
  assert (D : duration mass (Burn (mk3 0 0 0) t 0 isp) = Some 0).
  { unfold duration. cbn [Δv]. rewrite N. destruct (Req_EM_T 0 0); [reflexivity|contradiction]. }
  assert (F : final_mass mass (Burn (mk3 0 0 0) t 0 isp) = Some mass).
  { unfold final_mass, mass_flow. cbn [thrust specific_impulse]. rewrite quotient_ok by exact HI. cbn [bind]. rewrite D. cbn [bind]. f_equal. ring. }
  split; [exact D|]. split; [exact F|]. unfold time_to_half_Δv. rewrite F. cbn [bind]. rewrite quotient_ok by lra. cbn [bind thrust].
  unfold quotient. destruct (Req_EM_T 0 0); [reflexivity|contradiction].
Qed.
