(** Theorems about the simulated ego entity (C153, C154). *)
From Coq Require Import Reals List Bool Lra Lia Psatz.
From Verif Require Import M_Vehicle M_Ego S_Vehicle S_Ego P_Vehicle T_Vehicle.
Import ListNotations.
Open Scope R_scope.

(** *** Rotations *)

Lemma vec_eq : forall a b, vec_x a = vec_x b -> vec_y a = vec_y b -> vec_z a = vec_z b -> a = b.
Proof. intros [] [] A B C. cbn in *. congruence. Qed.

Lemma rotated_back : forall x y z w a, x * x + y * y + z * z + w * w = 1 ->
  times (rotation_matrix x y z w) (times (transpose (rotation_matrix x y z w)) a) = a.
Proof.
  intros x y z w a N. transitivity (vec ((x * x + y * y + z * z + w * w) * (x * x + y * y + z * z + w * w) * vec_x a)
    ((x * x + y * y + z * z + w * w) * (x * x + y * y + z * z + w * w) * vec_y a)
    ((x * x + y * y + z * z + w * w) * (x * x + y * y + z * z + w * w) * vec_z a)).
  - unfold times, transpose, rotation_matrix. cbn [m11 m12 m13 m21 m22 m23 m31 m32 m33 vec_x vec_y vec_z]. f_equal; ring.
  - rewrite N. apply vec_eq; cbn; ring.
Qed.

Lemma rotated_forth : forall x y z w a, x * x + y * y + z * z + w * w = 1 ->
  times (transpose (rotation_matrix x y z w)) (times (rotation_matrix x y z w) a) = a.
Proof.
  intros x y z w a N. transitivity (vec ((x * x + y * y + z * z + w * w) * (x * x + y * y + z * z + w * w) * vec_x a)
    ((x * x + y * y + z * z + w * w) * (x * x + y * y + z * z + w * w) * vec_y a)
    ((x * x + y * y + z * z + w * w) * (x * x + y * y + z * z + w * w) * vec_z a)).
  - unfold times, transpose, rotation_matrix. cbn [m11 m12 m13 m21 m22 m23 m31 m32 m33 vec_x vec_y vec_z]. f_equal; ring.
  - rewrite N. apply vec_eq; cbn; ring.
Qed.

Lemma back : forall e a, oriented e -> times (frame e) (times (transpose (frame e)) a) = a.
Proof. intros e a (x & y & z & w & N & F). rewrite F. now apply rotated_back. Qed.
Lemma forth : forall e a, oriented e -> times (transpose (frame e)) (times (frame e) a) = a.
Proof. intros e a (x & y & z & w & N & F). rewrite F. now apply rotated_forth. Qed.

(** *** C153: setting the state of the ego entity *)

Lemma overwrite_position : forall lane dt started yaw_ s rest e, oriented e ->
  position (reported (overwrite lane dt started yaw_ s rest e)) =
  match lane with None => position s | Some z => vec (vec_x (position s)) (vec_y (position s)) z end.
Proof.
  intros lane dt started yaw_ s rest e O.
  assert (vec_add (origin e) (times (frame e) (to_relative e (position s))) = position s) as P.
  { unfold to_relative. rewrite back by exact O. apply vec_eq; cbn; ring. }
  unfold overwrite. destruct started; cbn; unfold current_position; cbn [origin frame relative with_car with_relative];
    rewrite P; destruct lane; reflexivity.
Qed.

(** The ego entity is reported where it was put; a lane under it decides the height. *)
Theorem C153_position : forall lane dt started yaw_ s rest e, oriented e ->
  let r := position (reported (overwrite lane dt started yaw_ s rest e)) in
  vec_x r = vec_x (position s) /\ vec_y r = vec_y (position s) /\
  vec_z r = match lane with Some z => z | None => vec_z (position s) end.
Proof.
  intros lane dt started yaw_ s rest e O. cbn zeta. rewrite overwrite_position by exact O.
  destruct lane; cbn; auto.
Qed.

Lemma overwrite_car : forall lane dt yaw_ s rest e,
  car (overwrite lane dt true yaw_ s rest e) =
  set_state (overwritten_state (model (car e)) (wheelbase (params (car e))) (to_relative e (position s)) yaw_ s rest) (car e).
Proof. reflexivity. Qed.

Lemma overwrite_reported : forall lane dt started yaw_ s rest e,
  linear (reported (overwrite lane dt started yaw_ s rest e)) = get_vx (car (overwrite lane dt started yaw_ s rest e)) /\
  angular (reported (overwrite lane dt started yaw_ s rest e)) = get_wz (car (overwrite lane dt started yaw_ s rest e)).
Proof. intros lane dt started yaw_ s rest e. unfold overwrite. destruct started, lane; split; reflexivity. Qed.

(** With the speed and the yaw it was given, and for models with delays the yaw rate. *)
Theorem C153_motion : forall lane dt yaw_ s rest e,
  let r := overwrite lane dt true yaw_ s rest e in
  yaw (st (car r)) = yaw_ /\
  (model (car e) <> IdealSteerVel -> linear (reported r) = linear s) /\
  (delayed (model (car e)) = true -> wheelbase (params (car e)) <> 0 -> / 1000000000 <= Rabs (linear s) ->
     angular (reported r) = angular s).
Proof.
  intros lane dt yaw_ s rest e. cbn zeta. destruct (overwrite_reported lane dt true yaw_ s rest e) as [A B].
  rewrite A, B, overwrite_car. split; [| split].
  - unfold overwritten_state. destruct (model (car e)); reflexivity.
  - intros N. unfold get_vx. cbn [set_state model st]. unfold overwritten_state. destruct (model (car e)); try reflexivity. congruence.
  - intros D W V. assert (linear s <> 0) as NZ by (intros E; rewrite E, Rabs_R0 in V; lra).
    assert (linear s * tan (atan (angular s * wheelbase (params (car e)) / linear s)) / wheelbase (params (car e)) = angular s) as T.
    { rewrite tan_atan. field. auto. }
    assert (below (Rabs (linear s)) minimum_speed = false) as M by (apply below_false; exact V).
    unfold get_wz. cbn [set_state model st params]. unfold overwritten_state. rewrite M.
    destruct (model (car e)); try discriminate; exact T.
Qed.

(** The commands that are waiting are not given up. *)
Theorem C153_waiting : forall lane dt started yaw_ s rest e c, delayed (model (car e)) = true ->
  due (car (overwrite lane dt started yaw_ s rest e)) c = due (car e) c.
Proof. intros lane dt started yaw_ s rest e c D. unfold overwrite. destruct started; reflexivity. Qed.

(** A standing ego entity loses its yaw rate. *)
Theorem C153_standing_refuted : forall lane dt yaw_ s rest e, delayed (model (car e)) = true -> linear s = 0 ->
  angular (reported (overwrite lane dt true yaw_ s rest e)) = 0.
Proof.
  intros lane dt yaw_ s rest e D V. destruct (overwrite_reported lane dt true yaw_ s rest e) as [_ B].
  rewrite B, overwrite_car. unfold get_wz. cbn [set_state model st params]. unfold overwritten_state.
  destruct (model (car e)); try discriminate; cbn [vx steer]; rewrite V; unfold Rdiv; ring.
Qed.

(** With the ideal models the last command is reported instead: the angle, and for the default model
    the speed too. *)
Theorem C153_ideal_refuted : forall lane dt yaw_ s rest e,
  let r := overwrite lane dt true yaw_ s rest e in
  (model (car e) = IdealSteerVel ->
     linear (reported r) = longitudinal (inp (car e)) /\
     angular (reported r) = longitudinal (inp (car e)) * tan (angle (inp (car e))) / wheelbase (params (car e))) /\
  (model (car e) = IdealSteerAcc \/ model (car e) = IdealSteerAccGeared ->
     angular (reported r) = linear s * tan (angle (inp (car e))) / wheelbase (params (car e))).
Proof.
  intros lane dt yaw_ s rest e. cbn zeta. destruct (overwrite_reported lane dt true yaw_ s rest e) as [A B].
  rewrite A, B, overwrite_car. unfold get_vx, get_wz. cbn [set_state model st params inp]. split.
  - intros ->. auto.
  - intros [-> | ->]; reflexivity.
Qed.

(** The model without fall guard starts from whatever was in memory: the speed after the next step
    depends on it. *)
Theorem C153_memory_refuted : exists e s rest1 rest2 dt c,
  oriented e /\ sensible (params (car e)) /\ 0 < dt <= time_constant (params (car e)) /\
  vx (st (step dt (car (overwrite None dt true 0 s rest1 e)) c)) <>
  vx (st (step dt (car (overwrite None dt true 0 s rest2 e)) c)).
Proof.
  exists (ego (vehicle DelaySteerAccGearedWoFallGuard (parameters 50 7 1 5 3 1 1 0 0 1 1) zero_state zero_input gear_drive [] [] 0 0)
            (vec 0 0 0) (vec 0 0 0) (rotation_matrix 0 0 0 1) None None (status (vec 0 0 0) 0 0 0 0 0 0)),
    (status (vec 0 0 0) 10 0 0 0 0 0), (state 0 0 0 0 0 0 0), (state 0 0 0 0 0 0 1), 1, (input 0 0 gear_drive 0, gear_drive).
  split; [exists 0, 0, 0, 1; split; [ring | reflexivity] |]. split; [unfold sensible; cbn; lra |]. split; [cbn; lra |].
  rewrite !step_due by reflexivity. rewrite !overwrite_car. cbn [set_state model params car st delayed_step].
  unfold due, due_longitudinal, due_angle. cbn [set_state long_queue steer_queue app hd fst longitudinal angle gear_input slope overwritten_state].
  set (p := parameters _ _ _ _ _ _ _ _ _ _ _).
  assert (forall k, 0 <= k <= 1 ->
            vx (fall_step p 1 (input 0 0 gear_drive 0)
                  (state (vec_x (to_relative (ego (vehicle DelaySteerAccGearedWoFallGuard p zero_state zero_input gear_drive [] [] 0 0)
                     (vec 0 0 0) (vec 0 0 0) (rotation_matrix 0 0 0 1) None None (status (vec 0 0 0) 0 0 0 0 0 0)) (vec 0 0 0)))
                     (vec_y (to_relative (ego (vehicle DelaySteerAccGearedWoFallGuard p zero_state zero_input gear_drive [] [] 0 0)
                     (vec 0 0 0) (vec 0 0 0) (rotation_matrix 0 0 0 1) None None (status (vec 0 0 0) 0 0 0 0 0 0)) (vec 0 0 0)))
                     0 10 (if below (Rabs 10) minimum_speed then 0 else atan (0 * 3 / 10)) 0 k)) = 10 + k) as K.
  { intros k B. set (s := state _ _ _ _ _ _ _).
    assert (vx (limited p (euler (calc_fall p (input 0 0 gear_drive 0)) 1 s)) = 10 + k) as V.
    { cbn [limited with_vx euler added vx]. unfold calc_fall. cbn zeta. cbn [scaled vx].
      cbn [s vx pedal p vx_lim vx_rate_lim]. rewrite !sat_inside by lra. unfold fall_acceleration.
      assert (at_most 0 k = true) as -> by (apply at_most_true; lra).
      cbn [gear_input gear_drive gear_none gear_park gear_neutral Nat.eqb orb reverse_gear gear_reverse gear_reverse_2 slope].
      rewrite Rmin_left by lra. rewrite Rmax_right by lra. ring. }
    unfold fall_step. set (n := limited p _) in *. clearbody n. cbn zeta.
    assert (at_most (vx s * vx n) 0 = false) as -> by (apply at_most_false; rewrite V; cbn [s vx]; nra).
    cbn [andb with_accx vx]. exact V. }
  cbn [linear angular position accel_x pedal params wheelbase p].
  rewrite (K 0) by lra. rewrite (K 1) by lra. lra.
Qed.

(** Before the simulation of other entities has started, the next frame takes the ego entity back to
    where its vehicle model is. *)
Theorem C153_forgotten_refuted : forall lane dt yaw_ s rest c e, oriented e ->
  let r := update_ego None dt false c (overwrite lane dt false yaw_ s rest e) in
  vec_x (relative r) = px (st (car e)) /\ vec_y (relative r) = py (st (car e)).
Proof. intros lane dt yaw_ s rest c e O. cbn. auto. Qed.

(** *** C154: driving *)

Lemma update_car : forall lane dt c e, car (update_ego lane dt true c e) = step dt (car e) c.
Proof. reflexivity. Qed.
Lemma update_frame : forall lane dt b c e,
  frame (update_ego lane dt b c e) = frame e /\ origin (update_ego lane dt b c e) = origin e.
Proof. intros lane dt [] c e; split; reflexivity. Qed.

Lemma relative_z : forall e p, vec_z (to_relative e p) = above_plane e p.
Proof. intros e p. unfold to_relative, above_plane. cbn. ring. Qed.

Lemma update_position : forall lane dt c e,
  position (reported (update_ego lane dt true c e)) =
  let p := vec_add (origin e) (times (frame e)
             (vec (px (st (step dt (car e) c))) (py (st (step dt (car e) c))) (above_plane e (position (reported e))))) in
  match lane with None => p | Some z => vec (vec_x p) (vec_y p) z end.
Proof.
  intros lane dt c e. cbn zeta. rewrite <- relative_z. destruct lane; reflexivity.
Qed.

Lemma above_placed : forall e r, oriented e -> above_plane e (vec_add (origin e) (times (frame e) r)) = vec_z r.
Proof.
  intros e r O. rewrite <- relative_z. unfold to_relative.
  replace (vec_sub (vec_add (origin e) (times (frame e) r)) (origin e)) with (times (frame e) r)
    by (apply vec_eq; cbn; ring).
  now rewrite forth.
Qed.

(** Off the lanes the ego entity never leaves the plane it is in, whatever it is commanded. *)
Theorem C154_plane : forall dt cs e, oriented e ->
  above_plane e (position (reported (drive dt e (map (fun c => (None, c)) cs)))) =
  above_plane e (position (reported e)).
Proof.
  intros dt cs. induction cs as [| c cs IH]; intros e O; [reflexivity |].
  set (e' := update_ego None dt true c e). destruct (update_frame None dt true c e) as [F G].
  assert (oriented e') as O' by (unfold oriented, e'; rewrite F; exact O).
  assert (forall p, above_plane e p = above_plane e' p) as A by (intros p; unfold above_plane, e'; now rewrite F, G).
  change (above_plane e (position (reported (drive dt e' (map (fun c => (None, c)) cs)))) = above_plane e (position (reported e))).
  rewrite A, (IH e' O'), <- A. unfold e'. rewrite update_position. cbn zeta. now apply above_placed.
Qed.

(** What is reported is the state of the vehicle model placed in the plane, with its speed and yaw
    rate. *)
Theorem C154_reported : forall lane dt c e, oriented e ->
  let r := update_ego lane dt true c e in
  let v := step dt (car e) c in
  car r = v /\ linear (reported r) = get_vx v /\ angular (reported r) = get_wz v /\
  (level e -> (vec_x (position (reported r)) - vec_x (origin e)) * (vec_x (position (reported r)) - vec_x (origin e))
     + (vec_y (position (reported r)) - vec_y (origin e)) * (vec_y (position (reported r)) - vec_y (origin e))
     = px (st v) * px (st v) + py (st v) * py (st v)).
Proof.
  intros lane dt c e O. cbn zeta. split; [reflexivity |]. split; [destruct lane; reflexivity |]. split; [destruct lane; reflexivity |].
  intros (L1 & L2). rewrite update_position. cbn zeta. set (v := step dt (car e) c). set (h := above_plane e _). clearbody h.
  destruct O as (x & y & z & w & N & F).
  assert (m31 (frame e) = 0 /\ m32 (frame e) = 0) as [L3 L4].
  { assert (x * x + y * y = 0 \/ z * z + w * w = 0) as C.
    { rewrite F in L1, L2. cbn in L1, L2. assert (4 * ((x * x + y * y) * (z * z + w * w)) = 0) as P.
      { transitivity ((2 * (z * x + w * y)) * (2 * (z * x + w * y)) + (2 * (y * z - x * w)) * (2 * (y * z - x * w)));
          [ring | rewrite L1, L2; ring]. }
      apply Rmult_integral. lra. }
    assert (forall a b, a * a + b * b = 0 -> a = 0 /\ b = 0) as Z by (intros; split; nra).
    rewrite F. cbn. destruct C as [C | C]; destruct (Z _ _ C) as [-> ->]; split; ring. }
  assert (m11 (frame e) * m11 (frame e) + m21 (frame e) * m21 (frame e) + m31 (frame e) * m31 (frame e) = 1) as E1.
  { rewrite F. cbn. transitivity ((x * x + y * y + z * z + w * w) * (x * x + y * y + z * z + w * w)); [ring | rewrite N; ring]. }
  assert (m12 (frame e) * m12 (frame e) + m22 (frame e) * m22 (frame e) + m32 (frame e) * m32 (frame e) = 1) as E2.
  { rewrite F. cbn. transitivity ((x * x + y * y + z * z + w * w) * (x * x + y * y + z * z + w * w)); [ring | rewrite N; ring]. }
  assert (m11 (frame e) * m12 (frame e) + m21 (frame e) * m22 (frame e) + m31 (frame e) * m32 (frame e) = 0) as E3.
  { rewrite F. cbn. ring. }
  rewrite L3, L4 in *.
  set (a := px (st v)). set (b := py (st v)).
  set (u1 := m11 (frame e)) in *. set (u2 := m21 (frame e)) in *. set (w1 := m12 (frame e)) in *. set (w2 := m22 (frame e)) in *.
  assert (forall p, vec_x p = vec_x (origin e) + (u1 * a + w1 * b) -> vec_y p = vec_y (origin e) + (u2 * a + w2 * b) ->
    (vec_x p - vec_x (origin e)) * (vec_x p - vec_x (origin e)) + (vec_y p - vec_y (origin e)) * (vec_y p - vec_y (origin e))
    = a * a + b * b) as K.
  { intros p -> ->. transitivity (a * a * (u1 * u1 + u2 * u2 + 0 * 0) + b * b * (w1 * w1 + w2 * w2 + 0 * 0)
      + 2 * a * b * (u1 * w1 + u2 * w2 + 0 * 0)); [ring | rewrite E1, E2, E3; ring]. }
  apply K; destruct lane; unfold a, b, u1, u2, w1, w2; cbn; rewrite ?L1, ?L2; ring.
Qed.

(** A standing ego entity whose initial pose was level stays where it is; one whose initial pose was
    tilted is moved sideways in every frame in which its lane has another height. *)
Theorem C154_standing : forall lane dt c e, oriented e ->
  position (reported e) = vec_add (origin e) (times (frame e) (relative e)) ->
  px (st (step dt (car e) c)) = vec_x (relative e) -> py (st (step dt (car e) c)) = vec_y (relative e) ->
  position (reported (update_ego None dt true c e)) = position (reported e) /\
  let once := update_ego (Some lane) dt true c e in
  let twice := update_ego (Some lane) dt true c once in
  (px (st (step dt (car once) c)) = vec_x (relative e) -> py (st (step dt (car once) c)) = vec_y (relative e) ->
   vec_x (position (reported twice)) - vec_x (position (reported once)) =
     m13 (frame e) * m33 (frame e) * (lane - vec_z (position (reported e))) /\
   vec_y (position (reported twice)) - vec_y (position (reported once)) =
     m23 (frame e) * m33 (frame e) * (lane - vec_z (position (reported e)))).
Proof.
  intros lane dt c e O P X Y. split.
  - rewrite update_position. cbn zeta. rewrite X, Y, P, above_placed by exact O. now destruct (relative e).
  - cbn zeta. intros X' Y'. rewrite (update_position (Some lane) dt c (update_ego (Some lane) dt true c e)). cbn zeta.
    destruct (update_frame (Some lane) dt true c e) as [F G]. rewrite X', Y', F, G.
    assert (above_plane (update_ego (Some lane) dt true c e) (position (reported (update_ego (Some lane) dt true c e))) =
            vec_z (relative e) + m33 (frame e) * (lane - vec_z (position (reported e)))) as ->.
    { rewrite update_position. cbn zeta. rewrite X, Y, P, above_placed by exact O.
      transitivity (above_plane e (vec_add (origin e) (times (frame e) (relative e)))
                    + m33 (frame e) * (lane - vec_z (vec_add (origin e) (times (frame e) (relative e))))).
      - unfold above_plane. rewrite F, G. cbn [vec_x vec_y vec_z vec_add times]. ring.
      - now rewrite above_placed. }
    rewrite (update_position (Some lane) dt c e). cbn zeta. rewrite X, Y, P, above_placed by exact O.
    cbn [vec_x vec_y vec_z vec_add times]. split; ring.
Qed.

(** What is reported as jerk is the acceleration. *)
Theorem C154_jerk_refuted : forall lane1 lane2 dt c d e, minimum_dt <= dt ->
  match model (car e) with DelaySteerAccGearedWoFallGuard | DelaySteerVel | IdealSteerAccGeared => True | _ => False end ->
  let r := reported (update_ego lane2 dt true d (update_ego lane1 dt true c e)) in
  jerk r = accel_x r /\
  jerk r * dt = linear r - linear (reported (update_ego lane1 dt true c e)).
Proof.
  intros lane1 lane2 dt c d e D M. cbn zeta.
  assert (0 < dt) as DP by (unfold minimum_dt in D; lra).
  set (e1 := update_ego lane1 dt true c e).
  assert (previous_linear e1 = Some (get_vx (car e1)) /\ previous_angular e1 = Some (get_wz (car e1))) as [P1 P2] by (split; reflexivity).
  assert (linear (reported e1) = get_vx (car e1)) as L1 by (unfold e1; destruct lane1; reflexivity).
  assert (model (car e1) = model (car e)) as M1 by (unfold e1; rewrite update_car; apply step_same).
  pose proof (C151_change dt (car e1) d D) as K. rewrite M1 in K. specialize (K M). clearbody e1.
  assert (reported (update_ego lane2 dt true d e1) =
          snapped lane2 (status (vec_add (origin e1) (times (frame e1)
             (vec (px (st (step dt (car e1) d))) (py (st (step dt (car e1) d))) (above_plane e1 (position (reported e1))))))
             (get_vx (step dt (car e1) d)) (get_wz (step dt (car e1) d)) (get_ax (step dt (car e1) d))
             (get_wz (step dt (car e1) d) * get_vx (step dt (car e1) d))
             ((get_wz (step dt (car e1) d) - get_wz (car e1)) / dt)
             ((get_vx (step dt (car e1) d) - get_vx (car e1)) / dt))) as ->.
  { unfold update_ego. cbn zeta. unfold update_status. cbn [previous_linear previous_angular with_relative with_car update_previous reported].
    rewrite P1, P2, <- relative_z. reflexivity. }
  rewrite L1. assert (get_ax (step dt (car e1) d) = (get_vx (step dt (car e1) d) - get_vx (car e1)) / dt) as A
    by (rewrite <- K; field; lra).
  destruct lane2; cbn [snapped jerk accel_x linear]; split; auto; field; lra.
Qed.

(** *** Example: a tilted initial pose, a car that stands *)
Definition half : R := 1 / 2.
Definition tilted : Ego :=
  ego (vehicle DelaySteerAccGeared (parameters 50 7 1 5 3 1 1 0 0 1 1) zero_state zero_input gear_park [] [] 0 0)
    (vec 0 0 0) (vec 10 20 5) (rotation_matrix 0 (3 / 5) 0 (4 / 5)) None None (status (vec 10 20 5) 0 0 0 0 0 0).

Example C154_example : oriented tilted /\ position (reported tilted) = vec_add (origin tilted) (times (frame tilted) (relative tilted)) /\
  px (st (step 1 (car tilted) (zero_input, gear_park))) = vec_x (relative tilted) /\
  m13 (frame tilted) * m33 (frame tilted) <> 0.
Proof.
  split; [exists 0, (3 / 5), 0, (4 / 5); split; [field | reflexivity] |]. split; [apply vec_eq; cbn; ring |].
  split; [reflexivity |]. cbn. lra.
Qed.

Print Assumptions C153_position.
Print Assumptions C153_motion.
Print Assumptions C153_waiting.
Print Assumptions C153_standing_refuted.
Print Assumptions C153_ideal_refuted.
Print Assumptions C153_memory_refuted.
Print Assumptions C153_forgotten_refuted.
Print Assumptions C154_plane.
Print Assumptions C154_reported.
Print Assumptions C154_standing.
Print Assumptions C154_jerk_refuted.
