(** Runge-Kutta steps of single components, queues *)
From Coq Require Import Reals List ZArith Bool Lra Lia Psatz.
From Verif Require Import M_Vehicle S_Vehicle.
Import ListNotations.
Open Scope R_scope.

Lemma below_true : forall a b, below a b = true <-> a < b.
Proof. intros a b. unfold below. destruct (Rlt_dec a b); split; congruence || tauto. Qed.
Lemma below_false : forall a b, below a b = false <-> b <= a.
Proof. intros a b. unfold below. destruct (Rlt_dec a b); split; intros; try congruence; lra. Qed.
Lemma at_most_true : forall a b, at_most a b = true <-> a <= b.
Proof. intros a b. unfold at_most. destruct (Rle_dec a b); split; congruence || tauto. Qed.
Lemma at_most_false : forall a b, at_most a b = false <-> b < a.
Proof. intros a b. unfold at_most. destruct (Rle_dec a b); split; intros; try congruence; lra. Qed.

Lemma sat_range : forall v l, 0 <= l -> - l <= sat v l (- l) <= l.
Proof.
  intros v l L. unfold sat. split; [apply Rmax_r |]. apply Rmax_lub; [apply Rmin_r | lra].
Qed.

Lemma sat_inside : forall v l, - l <= v <= l -> sat v l (- l) = v.
Proof. intros v l H. unfold sat. rewrite Rmin_left by lra. apply Rmax_left. lra. Qed.

(** Saturation does not change the sign and does not make numbers larger. *)
Lemma sat_pos : forall v l, 0 <= l -> 0 <= v -> 0 <= sat v l (- l) <= v.
Proof.
  intros v l L V. unfold sat. rewrite Rmax_left.
  - split; [now apply Rmin_glb | apply Rmin_l].
  - apply Rle_trans with 0; [lra |]. now apply Rmin_glb.
Qed.
Lemma sat_neg : forall v l, 0 <= l -> v <= 0 -> v <= sat v l (- l) <= 0.
Proof.
  intros v l L V. unfold sat. rewrite (Rmin_left v l) by lra. split; [apply Rmax_l |].
  apply Rmax_lub; lra.
Qed.
Lemma sat_positive : forall v l, 0 < l -> 0 < v -> 0 < sat v l (- l).
Proof.
  intros v l L V. unfold sat. apply Rlt_le_trans with (Rmin v l); [| apply Rmax_l].
  now apply Rmin_glb_lt.
Qed.
Lemma sat_negative : forall v l, 0 < l -> v < 0 -> sat v l (- l) < 0.
Proof. intros v l L V. unfold sat. rewrite (Rmin_left v l) by lra. apply Rmax_lub_lt; lra. Qed.

(** *** One component *)

Definition rk1 (f : R -> R) (dt x : R) : R :=
  let k1 := f x in
  let k2 := f (x + 1 / 2 * dt * k1) in
  let k3 := f (x + 1 / 2 * dt * k2) in
  let k4 := f (x + dt * k3) in
  x + 1 / 6 * dt * ((k1 + 2 * k2) + (2 * k3 + k4)).

Lemma rk1_rate : forall f dt x r, 0 <= dt -> (forall y, - r <= f y <= r) ->
  - (r * dt) <= rk1 f dt x - x <= r * dt.
Proof.
  intros f dt x r D B. unfold rk1. cbv zeta.
  set (k1 := f x). set (k2 := f (x + 1 / 2 * dt * k1)). set (k3 := f (x + 1 / 2 * dt * k2)).
  set (k4 := f (x + dt * k3)).
  assert (- r <= k1 <= r) by apply B. assert (- r <= k2 <= r) by apply B.
  assert (- r <= k3 <= r) by apply B. assert (- r <= k4 <= r) by apply B.
  clearbody k1 k2 k3 k4.
  replace (x + 1 / 6 * dt * (k1 + 2 * k2 + (2 * k3 + k4)) - x)
    with (dt * (1 / 6 * (k1 + 2 * k2 + (2 * k3 + k4)))) by ring.
  set (m := 1 / 6 * (k1 + 2 * k2 + (2 * k3 + k4))). assert (- r <= m <= r) by (unfold m; lra).
  clearbody m. nra.
Qed.

(** A lag that never overshoots: the slope is never more than the distance over [tau]. *)
Lemma rk1_up : forall f dt tau x T, 0 < dt <= tau -> x <= T ->
  (forall y, x <= y <= T -> 0 <= f y <= (T - y) / tau) ->
  x + 1 / 6 * dt * f x <= rk1 f dt x <= T.
Proof.
  intros f dt tau x T [D L] X H. unfold rk1. cbv zeta.
  set (g := (T - x) / tau).
  assert (0 <= g) as G.
  { unfold g. apply Rmult_le_pos; [lra |]. apply Rlt_le, Rinv_0_lt_compat. lra. }
  assert (dt * g <= T - x) as DG.
  { assert (T - x = tau * g) as -> by (unfold g; field; lra). nra. }
  assert (forall y, x <= y <= T -> 0 <= f y <= g) as B.
  { intros y Y. destruct (H y Y) as [A C]. split; [exact A |]. apply Rle_trans with (1 := C).
    unfold g. apply Rmult_le_compat_r; [apply Rlt_le, Rinv_0_lt_compat; lra | lra]. }
  set (k1 := f x). assert (0 <= k1 <= g) as K1 by (apply B; lra).
  set (k2 := f (x + 1 / 2 * dt * k1)). assert (0 <= k2 <= g) as K2 by (apply B; nra).
  set (k3 := f (x + 1 / 2 * dt * k2)). assert (0 <= k3 <= g) as K3 by (apply B; nra).
  set (k4 := f (x + dt * k3)). assert (0 <= k4 <= g) as K4 by (apply B; nra).
  clearbody k1 k2 k3 k4. nra.
Qed.

Lemma rk1_down : forall f dt tau x T, 0 < dt <= tau -> T <= x ->
  (forall y, T <= y <= x -> (T - y) / tau <= f y <= 0) ->
  T <= rk1 f dt x <= x + 1 / 6 * dt * f x.
Proof.
  intros f dt tau x T D X H.
  destruct (rk1_up (fun y => - f (- y)) dt tau (- x) (- T) D ltac:(lra)) as [A B].
  { intros y Y. destruct (H (- y) ltac:(lra)) as [P Q]. split; [lra |].
    replace ((- T - y) / tau) with (- ((T - - y) / tau)) by (unfold Rdiv; ring). lra. }
  assert (rk1 (fun y => - f (- y)) dt (- x) = - rk1 f dt x) as E.
  { unfold rk1. cbv zeta. rewrite !Ropp_involutive.
    replace (- (- x + 1 / 2 * dt * - f x)) with (x + 1 / 2 * dt * f x) by ring.
    set (k2 := f (x + 1 / 2 * dt * f x)).
    replace (- (- x + 1 / 2 * dt * - k2)) with (x + 1 / 2 * dt * k2) by ring.
    set (k3 := f (x + 1 / 2 * dt * k2)).
    replace (- (- x + dt * - k3)) with (x + dt * k3) by ring. ring. }
  rewrite E in A, B. rewrite Ropp_involutive in A. lra.
Qed.

(** *** The rate of the steering angle *)

Lemma dead_zero : forall band d, 0 <= band -> - band <= d <= band -> dead_banded band d = 0.
Proof.
  intros band d B D. unfold dead_banded.
  assert (below band d = false) as -> by (apply below_false; lra).
  now assert (below d (- band) = false) as -> by (apply below_false; lra).
Qed.
Lemma dead_pos : forall band d, 0 <= band -> 0 <= d -> 0 <= dead_banded band d <= d.
Proof.
  intros band d B D. unfold dead_banded. destruct (below band d) eqn:E; [apply below_true in E; lra |].
  destruct (below d (- band)) eqn:F; [apply below_true in F |]; lra.
Qed.
Lemma dead_neg : forall band d, 0 <= band -> d <= 0 -> d <= dead_banded band d <= 0.
Proof.
  intros band d B D. unfold dead_banded. destruct (below band d) eqn:E; [apply below_true in E; lra |].
  destruct (below d (- band)) eqn:F; [apply below_true in F |]; lra.
Qed.

Lemma over_tau : forall u v tau, 0 < tau -> u <= v -> u / tau <= v / tau.
Proof. intros u v tau T H. apply Rmult_le_compat_r; [apply Rlt_le, Rinv_0_lt_compat | ]; lra. Qed.
Lemma pos_over : forall u tau, 0 < tau -> 0 <= u -> 0 <= u / tau.
Proof. intros u tau T H. apply Rmult_le_pos; [lra | apply Rlt_le, Rinv_0_lt_compat; lra]. Qed.
Lemma neg_over : forall u tau, 0 < tau -> u <= 0 -> u / tau <= 0.
Proof. intros u tau T H. pose proof (pos_over (- u) tau T ltac:(lra)). unfold Rdiv in *. lra. Qed.
Lemma strict_over : forall u tau, 0 < tau -> 0 < u -> 0 < u / tau.
Proof. intros u tau T H. apply Rmult_lt_0_compat; [lra | apply Rinv_0_lt_compat; lra]. Qed.

Lemma rate_up : forall p T y, sensible p -> y <= T ->
  0 <= steer_rate p y T <= (T - y) / steer_time_constant p.
Proof.
  intros p T y (_ & _ & _ & R & _ & C & B & _) Y. unfold steer_rate.
  destruct (dead_neg (steer_dead_band p) (y - T) B ltac:(lra)) as [D1 D2].
  set (d := dead_banded (steer_dead_band p) (y - T)) in *.
  destruct (sat_pos (- d / steer_time_constant p) (steer_rate_lim p) R) as [A1 A2].
  { apply pos_over; lra. }
  split; [exact A1 |]. apply Rle_trans with (1 := A2). apply over_tau; lra.
Qed.
Lemma rate_down : forall p T y, sensible p -> T <= y ->
  (T - y) / steer_time_constant p <= steer_rate p y T <= 0.
Proof.
  intros p T y (_ & _ & _ & R & _ & C & B & _) Y. unfold steer_rate.
  destruct (dead_pos (steer_dead_band p) (y - T) B ltac:(lra)) as [D1 D2].
  set (d := dead_banded (steer_dead_band p) (y - T)) in *.
  destruct (sat_neg (- d / steer_time_constant p) (steer_rate_lim p) R) as [A1 A2].
  { apply neg_over; lra. }
  split; [| exact A2]. apply Rle_trans with (2 := A1). apply over_tau; lra.
Qed.
Lemma rate_limit : forall p T y, sensible p ->
  - steer_rate_lim p <= steer_rate p y T <= steer_rate_lim p.
Proof. intros p T y (_ & _ & _ & R & _). unfold steer_rate. now apply sat_range. Qed.
Lemma rate_zero : forall p T y, sensible p -> Rabs (y - T) <= steer_dead_band p -> steer_rate p y T = 0.
Proof.
  intros p T y (_ & _ & _ & R & _ & C & B & _) H. unfold steer_rate.
  rewrite dead_zero; [| exact B | unfold Rabs in H; destruct (Rcase_abs (y - T)); lra].
  replace (- 0 / steer_time_constant p) with 0 by (unfold Rdiv; ring). apply sat_inside. lra.
Qed.
Lemma rate_moves : forall p T y, sensible p -> 0 < steer_rate_lim p -> steer_dead_band p < Rabs (y - T) ->
  (y < T -> 0 < steer_rate p y T) /\ (T < y -> steer_rate p y T < 0).
Proof.
  intros p T y (_ & _ & _ & _ & _ & C & B & _) R H. unfold steer_rate. split; intros L.
  - rewrite Rabs_left in H by lra. apply sat_positive; [exact R |]. apply strict_over; [exact C |].
    unfold dead_banded. assert (below (steer_dead_band p) (y - T) = false) as -> by (apply below_false; lra).
    assert (below (y - T) (- steer_dead_band p) = true) as -> by (apply below_true; lra). lra.
  - rewrite Rabs_right in H by lra. apply sat_negative; [exact R |].
    unfold dead_banded. assert (below (steer_dead_band p) (y - T) = true) as -> by (apply below_true; lra).
    pose proof (strict_over (y - T - steer_dead_band p) (steer_time_constant p) C ltac:(lra)). unfold Rdiv in *. lra.
Qed.

(** *** Queues *)

Lemma rotate_front : forall q v, fst (rotate q v) :: snd (rotate q v) = q ++ [v].
Proof. intros [| a q] v; reflexivity. Qed.

Lemma rotate_length : forall q v, List.length (snd (rotate q v)) = List.length q.
Proof.
  intros q v. pose proof (f_equal (@List.length R) (rotate_front q v)) as H. rewrite app_length in H.
  cbn in H. lia.
Qed.

Lemma queue_size_near : forall delay dt, 0 <= delay -> 0 < dt ->
  Rabs (INR (queue_size delay dt) * dt - delay) <= dt / 2.
Proof.
  intros delay dt D T. unfold queue_size.
  set (q := delay / dt). assert (0 <= q) as Q by (apply pos_over; lra).
  assert (delay = q * dt) as DQ by (unfold q; field; lra). rewrite DQ. clearbody q. clear delay D DQ.
  destruct (base_Int_part (q + 1 / 2)) as [A B].
  assert (0 <= Int_part (q + 1 / 2))%Z as Z.
  { apply Z.lt_succ_r, lt_IZR. rewrite succ_IZR. lra. }
  rewrite INR_IZR_INZ, Z2Nat.id by exact Z. set (n := IZR (Int_part (q + 1 / 2))) in *.
  replace (n * dt - q * dt) with ((n - q) * dt) by ring. rewrite Rabs_mult, (Rabs_right dt) by lra.
  assert (Rabs (n - q) <= 1 / 2) by (apply Rabs_le; lra). nra.
Qed.
