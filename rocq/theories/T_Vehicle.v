(** Theorems about the vehicle models of the ego entity (C146 - C151). *)
From Coq Require Import Reals List ZArith Bool Lra Lia Psatz.
From Verif Require Import M_Vehicle S_Vehicle P_Vehicle.
Import ListNotations.
Open Scope R_scope.

(** *** C146: delays *)

Lemma step_same : forall dt v c, model (step dt v c) = model v /\ params (step dt v c) = params v.
Proof.
  intros dt v [u g]. unfold step, update. cbn [set_command model params fst snd inp].
  destruct (delayed (model v)); cbn [long_queue steer_queue set_command];
    repeat match goal with |- context [let '(_, _) := ?p in _] => destruct p end; auto.
Qed.

Lemma step_delayed : forall dt v c, delayed (model v) = true ->
  st (step dt v c) =
    delayed_step (model v) (params v) (snd c) dt
      (input (fst (rotate (long_queue v) (longitudinal (fst c))))
             (fst (rotate (steer_queue v) (angle (fst c)))) (gear_input (fst c)) (slope (fst c))) (st v) /\
  long_queue (step dt v c) = snd (rotate (long_queue v) (longitudinal (fst c))) /\
  steer_queue (step dt v c) = snd (rotate (steer_queue v) (angle (fst c))).
Proof.
  intros dt v [u g] D. unfold step, update. cbn [set_command model params fst snd inp long_queue steer_queue].
  rewrite D. destruct (rotate (long_queue v) (longitudinal u)) as [lo lq].
  destruct (rotate (steer_queue v) (angle u)) as [an sq]. auto.
Qed.

Lemma step_ideal : forall dt v c, delayed (model v) = false ->
  st (step dt v c) = delayed_step (model v) (params v) (snd c) dt
      (input (longitudinal (fst c)) (angle (fst c)) (gear_input (fst c)) (slope (fst c))) (st v).
Proof.
  intros dt v [u g] D. unfold step, update. cbn [set_command model params fst snd inp long_queue steer_queue].
  now rewrite D.
Qed.

Lemma shifted_run : forall dt cs v w later, delayed (model v) = true ->
  model w = model v -> params w = params v -> st w = st v -> long_queue w = [] -> steer_queue w = [] ->
  shifted (long_queue v) (steer_queue v) cs later -> st (run dt v cs) = st (run dt w later).
Proof.
  intros dt. induction cs as [| c cs IH]; intros v w later D M P S Q1 Q2 [L H].
  - destruct later; [| discriminate]. cbn. congruence.
  - destruct later as [| d later]; [discriminate |]. cbn [run fold_left].
    destruct (H 0%nat c d eq_refl eq_refl) as (A & B & G1 & G2 & G3).
    assert (forall q v, nth_error (q ++ v :: map (fun c => longitudinal (fst c)) cs) 0 = Some (fst (rotate q v))) as F1
      by (intros [| a q] v0; reflexivity).
    assert (forall q v, nth_error (q ++ v :: map (fun c => angle (fst c)) cs) 0 = Some (fst (rotate q v))) as F2
      by (intros [| a q] v0; reflexivity).
    cbn [map] in A, B. rewrite F1 in A. rewrite F2 in B. injection A as A. injection B as B.
    destruct (step_delayed dt v c D) as (E1 & E2 & E3).
    assert (delayed (model w) = true) as Dw by congruence.
    destruct (step_delayed dt w d Dw) as (W1 & W2 & W3). rewrite Q1 in W1, W2. rewrite Q2 in W1, W3.
    cbn [rotate app fst snd] in W1, W2, W3.
    destruct (step_same dt v c) as [Mv Pv]. destruct (step_same dt w d) as [Mw Pw].
    apply IH; [congruence | congruence | congruence | | exact W2 | exact W3 |].
    + rewrite E1, W1, M, P, S, G3, A, B, G1, G2. reflexivity.
    + rewrite E2, E3. split; [cbn in L; congruence |]. intros k c' d' C' D'.
      destruct (H (Datatypes.S k) c' d' C' D') as (A' & B' & R). cbn [map] in A', B'. split; [| split; [| exact R]].
      * rewrite <- A'. change (longitudinal (fst c) :: map (fun c0 => longitudinal (fst c0)) cs)
          with ([longitudinal (fst c)] ++ map (fun c0 => longitudinal (fst c0)) cs).
        now rewrite app_assoc, <- rotate_front.
      * rewrite <- B'. change (angle (fst c) :: map (fun c0 => angle (fst c0)) cs)
          with ([angle (fst c)] ++ map (fun c0 => angle (fst c0)) cs).
        now rewrite app_assoc, <- rotate_front.
Qed.

(** A vehicle with delay behaves as one without delay that is given the waiting commands first. *)
Theorem C146_delay : forall dt v cs later, delayed (model v) = true ->
  shifted (long_queue v) (steer_queue v) cs later ->
  st (run dt v cs) = st (run dt (unqueued v) later).
Proof. intros dt v cs later D H. now apply shifted_run. Qed.

Lemma shifted_exists : forall cs q1 q2, exists later, shifted q1 q2 cs later.
Proof.
  intros cs q1 q2.
  exists (map (fun k => let c := nth k cs (zero_input, 0%nat) in
                (input (nth k (q1 ++ map (fun c => longitudinal (fst c)) cs) 0)
                   (nth k (q2 ++ map (fun c => angle (fst c)) cs) 0)
                   (gear_input (fst c)) (slope (fst c)), snd c)) (seq 0 (List.length cs))).
  split; [now rewrite map_length, seq_length |]. intros k c d C D.
  assert (k < List.length cs)%nat as K by (apply nth_error_Some; congruence).
  rewrite nth_error_map, (nth_error_nth' _ 0%nat) in D by now rewrite seq_length. cbn in D.
  injection D as <-. rewrite seq_nth by exact K. cbn [fst snd longitudinal angle gear_input slope plus].
  rewrite (nth_error_nth cs k _ C).
  split; [apply nth_error_nth'; rewrite app_length, map_length; unfold command in *; lia |].
  split; [apply nth_error_nth'; rewrite app_length, map_length; unfold command in *; lia |]. auto.
Qed.

(** The commands of the last steps have no effect yet. *)
Theorem C146_late : forall dt v cs late1 late2, delayed (model v) = true ->
  Forall2 same_but_delayed late1 late2 ->
  (List.length late1 <= List.length (long_queue v))%nat ->
  (List.length late1 <= List.length (steer_queue v))%nat ->
  st (run dt v (cs ++ late1)) = st (run dt v (cs ++ late2)).
Proof.
  intros dt v cs late1 late2 D F L1 L2.
  destruct (shifted_exists (cs ++ late1) (long_queue v) (steer_queue v)) as [later S].
  rewrite (C146_delay dt v (cs ++ late1) later D S). symmetry. apply C146_delay; [exact D |].
  assert (List.length late1 = List.length late2) as FL by (clear - F; induction F; cbn; congruence). destruct S as [L H]. split.
  { rewrite L, !app_length. lia. }
  intros k c d C Dk.
  assert (k < List.length (cs ++ late1))%nat as K.
  { rewrite app_length, FL, <- app_length. apply nth_error_Some. congruence. }
  destruct (nth_error (cs ++ late1) k) as [c1 |] eqn:C1; [| apply nth_error_None in C1; lia].
  destruct (H k c1 d C1 Dk) as (A & B & G1 & G2 & G3).
  assert (forall (f : command -> R) q, (List.length late1 <= List.length q)%nat ->
            nth_error (q ++ map f (cs ++ late2)) k = nth_error (q ++ map f (cs ++ late1)) k) as X.
  { intros f q Q. rewrite app_length in K. rewrite !map_app, !app_assoc.
    rewrite (nth_error_app1 _ (map f late2)), (nth_error_app1 _ (map f late1)); [reflexivity | |];
      rewrite app_length, map_length; lia. }
  rewrite !X by assumption. split; [exact A |]. split; [exact B |].
  assert (same_but_delayed c1 c) as (S1 & S2 & S3).
  { destruct (Nat.lt_ge_cases k (List.length cs)) as [Y | Y].
    - rewrite nth_error_app1 in C, C1 by exact Y. assert (c1 = c) as -> by congruence. repeat split.
    - rewrite nth_error_app2 in C, C1 by exact Y. revert C C1. generalize (k - List.length cs)%nat.
      clear - F. induction F as [| u w l1 l2 S F IH]; intros [| n] C C1; cbn in C, C1; try discriminate.
      + injection C as <-. now injection C1 as <-.
      + eapply IH; eassumption. }
  rewrite S1, S2, S3. auto.
Qed.

(** The number of waiting commands is the delay in steps, rounded. *)
Theorem C146_size : forall delay dt, 0 <= delay -> 0 < dt ->
  Rabs (INR (List.length (initial_queue delay dt)) * dt - delay) <= dt / 2 /\
  forall v, In v (initial_queue delay dt) -> v = 0.
Proof.
  intros delay dt D T. unfold initial_queue. rewrite repeat_length. split; [now apply queue_size_near |].
  intros v. apply repeat_spec.
Qed.

(** *** C147: limits of the speed *)

Lemma run_snoc : forall dt v cs c, run dt v (cs ++ [c]) = step dt (run dt v cs) c.
Proof. intros dt v cs c. unfold run. now rewrite fold_left_app. Qed.

Lemma run_same : forall dt cs v, model (run dt v cs) = model v /\ params (run dt v cs) = params v.
Proof.
  induction cs as [| c cs IH]; intros v; [auto |]. cbn [run fold_left].
  destruct (step_same dt v c) as [A B]. destruct (IH (step dt v c)) as [C D]. unfold run in *. split; congruence.
Qed.

Lemma step_is : forall dt v c, exists lo an,
  st (step dt v c) = delayed_step (model v) (params v) (snd c) dt
                       (input lo an (gear_input (fst c)) (slope (fst c))) (st v).
Proof.
  intros dt v c. destruct (delayed (model v)) eqn:D.
  - destruct (step_delayed dt v c D) as (E & _). rewrite E. eauto.
  - rewrite (step_ideal dt v c D). eauto.
Qed.

Lemma limited_range : forall p s, 0 <= vx_lim p -> - vx_lim p <= vx (limited p s) <= vx_lim p.
Proof.
  intros p s L. cbn [limited with_vx vx]. split; [apply Rmax_l |]. apply Rmax_lub; [lra | apply Rmin_r].
Qed.

Lemma with_gear_cases : forall stop g prev s, with_gear stop g prev s = s \/ with_gear stop g prev s = stop prev s.
Proof.
  intros stop g prev s. unfold with_gear. destruct (forward_gear g), (reverse_gear g); auto;
    destruct (below _ _); auto.
Qed.

Lemma abs_range : forall v l, - l <= v <= l -> Rabs v <= l.
Proof. intros. apply Rabs_le. lra. Qed.
Lemma range_abs : forall v l, Rabs v <= l -> - l <= v <= l.
Proof. intros v l H. unfold Rabs in H. destruct (Rcase_abs v); lra. Qed.

(** After every step the speed is within the limit, in the models with a limit. *)
Theorem C147_speed : forall dt v cs c, 0 <= vx_lim (params v) ->
  match model v with
  | DelaySteerAcc | DelaySteerAccGeared | DelaySteerAccGearedWoFallGuard | DelaySteerMapAccGeared _ =>
      Rabs (vx (st (run dt v (cs ++ [c])))) <= vx_lim (params v)
  | _ => True
  end.
Proof.
  intros dt v cs c L. rewrite run_snoc. destruct (run_same dt cs v) as [M P].
  destruct (step_is dt (run dt v cs) c) as (lo & an & E). rewrite E, M, P. clear E M P.
  set (s := st (run dt v cs)). set (u := input _ _ _ _). clearbody s u.
  assert (forall p s, 0 <= vx_lim p -> Rabs (vx (limited p s)) <= vx_lim p) as LR.
  { intros p t H. apply abs_range. now apply limited_range. }
  assert (forall s t p g, 0 <= vx_lim p -> Rabs (vx (with_gear (stopped_acc dt) g s (limited p t))) <= vx_lim p) as LG.
  { intros s0 t p g H. destruct (with_gear_cases (stopped_acc dt) g s0 (limited p t)) as [-> | ->]; [now apply LR |].
    cbn. now rewrite Rabs_R0. }
  destruct (model v); try exact I; cbn [delayed_step].
  - now apply LR.
  - now apply LG.
  - unfold fall_step. cbn zeta. destruct (_ && _); cbn [with_accx with_vx vx]; [now rewrite Rabs_R0 |].
    apply LR, L.
  - now apply LG.
Qed.

(** The model commanded by speeds stays within the limit too, for steps not above its time constant. *)
Lemma vel_component : forall p u dt s,
  vx (runge_kutta (calc_vel p u) dt s) =
  rk1 (fun y => sat (- (sat y (vx_lim p) (- vx_lim p) - sat (longitudinal u) (vx_lim p) (- vx_lim p)) / time_constant p)
                  (vx_rate_lim p) (- vx_rate_lim p)) dt (vx s).
Proof. reflexivity. Qed.

Lemma vel_between : forall p u dt s, sensible p -> 0 < dt <= time_constant p -> Rabs (vx s) <= vx_lim p ->
  between_numbers (vx s) (vx (runge_kutta (calc_vel p u) dt s)) (sat (longitudinal u) (vx_lim p) (- vx_lim p)).
Proof.
  intros p u dt s (V & VR & _ & _ & TC & _) D S. rewrite vel_component.
  pose proof (sat_range (longitudinal u) (vx_lim p) V) as TR.
  set (T := sat (longitudinal u) (vx_lim p) (- vx_lim p)) in *. clearbody T.
  apply range_abs in S. set (x := vx s) in *. clearbody x. unfold between_numbers.
  destruct (Rle_dec x T) as [L | L].
  - left. match goal with |- context [rk1 ?f _ _] => destruct (rk1_up f dt (time_constant p) x T D L) as [A B] end.
    + intros y Y. rewrite (sat_inside y) by lra.
      destruct (sat_pos (- (y - T) / time_constant p) (vx_rate_lim p) VR) as [P Q]; [apply pos_over; lra |].
      split; [exact P |]. apply Rle_trans with (1 := Q). apply over_tau; lra.
    + split; [| exact B]. apply Rle_trans with (2 := A).
      match goal with |- _ <= _ + 1 / 6 * dt * ?k => assert (0 <= k) as K end; [| nra].
      cbv beta. rewrite (sat_inside x) by lra. apply (sat_pos _ _ VR). apply pos_over; lra.
  - right. match goal with |- context [rk1 ?f _ _] => destruct (rk1_down f dt (time_constant p) x T D ltac:(lra)) as [A B] end.
    + intros y Y. rewrite (sat_inside y) by lra.
      destruct (sat_neg (- (y - T) / time_constant p) (vx_rate_lim p) VR) as [P Q]; [apply neg_over; lra |].
      split; [| exact Q]. apply Rle_trans with (2 := P). apply over_tau; lra.
    + split; [exact A |]. apply Rle_trans with (1 := B).
      match goal with |- _ + 1 / 6 * dt * ?k <= _ => assert (k <= 0) as K end; [| nra].
      cbv beta. rewrite (sat_inside x) by lra. apply (sat_neg _ _ VR). apply neg_over; lra.
Qed.

Theorem C147_speed_commanded : forall dt v cs, model v = DelaySteerVel -> sensible (params v) ->
  0 < dt <= time_constant (params v) -> Rabs (vx (st v)) <= vx_lim (params v) ->
  Rabs (vx (st (run dt v cs))) <= vx_lim (params v).
Proof.
  intros dt v cs M S D. revert v M S D. induction cs as [| c cs IH]; intros v M S D L; [exact L |]. cbn [run fold_left].
  destruct (step_same dt v c) as [M' P']. rewrite <- P'. apply IH; rewrite ?P'; try assumption; [congruence |].
  destruct (step_is dt v c) as (lo & an & E). rewrite E, M. cbn [delayed_step].
  pose proof (vel_between (params v) (input lo an (gear_input (fst c)) (slope (fst c))) dt (st v) S D L) as B.
  destruct S as (V & _). pose proof (sat_range lo (vx_lim (params v)) V) as R. cbn [longitudinal] in B.
  apply range_abs in L. apply abs_range. unfold between_numbers in B. lra.
Qed.

Lemma acc_component : forall calc dt s r, 0 <= dt -> (forall t, - r <= vx (calc t) <= r) ->
  - (r * dt) <= vx (runge_kutta calc dt s) - vx s <= r * dt.
Proof.
  intros calc dt s r D B. unfold runge_kutta. cbn zeta.
  set (k1 := calc s). set (k2 := calc (added s (scaled (1 / 2 * dt) k1))).
  set (k3 := calc (added s (scaled (1 / 2 * dt) k2))). set (k4 := calc (added s (scaled dt k3))).
  assert (- r <= vx k1 <= r) by apply B. assert (- r <= vx k2 <= r) by apply B.
  assert (- r <= vx k3 <= r) by apply B. assert (- r <= vx k4 <= r) by apply B.
  clearbody k1 k2 k3 k4. cbn [added scaled vx].
  match goal with |- _ <= vx s + 1 / 6 * dt * ?m - vx s <= _ =>
    replace (vx s + 1 / 6 * dt * m - vx s) with (dt * (1 / 6 * m)) by ring; set (w := 1 / 6 * m) end.
  assert (- r <= w <= r) by (unfold w; lra). clearbody w. nra.
Qed.

Lemma fall_range : forall r vel pedal_acc u, 0 <= r -> - r <= pedal_acc <= r ->
  - (r + Rabs (slope u)) <= fall_acceleration vel pedal_acc u <= r + Rabs (slope u).
Proof.
  intros r vel pedal_acc u R P.
  assert (- Rabs (slope u) <= slope u <= Rabs (slope u)) as S by (apply range_abs, Rle_refl).
  assert (0 <= Rabs (slope u)) as A by apply Rabs_pos. unfold fall_acceleration.
  repeat match goal with |- context [if ?b then _ else _] => destruct b end; lra.
Qed.

Lemma limited_near : forall p s t r, 0 <= r -> Rabs (vx s) <= vx_lim p -> - r <= vx t - vx s <= r ->
  - r <= vx (limited p t) - vx s <= r.
Proof.
  intros p s t r R S B. apply range_abs in S. cbn [limited with_vx vx].
  unfold Rmax, Rmin. destruct (Rle_dec (vx t) (vx_lim p)); destruct (Rle_dec (- vx_lim p) _); lra.
Qed.

(** The speed changes no faster than the limit of the acceleration, unless the gear stops the
    vehicle. *)
Theorem C147_acceleration : forall dt v c, sensible (params v) -> 0 <= dt ->
  Rabs (vx (st v)) <= vx_lim (params v) ->
  match model v with
  | DelaySteerAcc | DelaySteerVel =>
      Rabs (vx (st (step dt v c)) - vx (st v)) <= vx_rate_lim (params v) * dt
  | DelaySteerAccGeared | DelaySteerMapAccGeared _ =>
      Rabs (vx (st (step dt v c)) - vx (st v)) <= vx_rate_lim (params v) * dt \/ vx (st (step dt v c)) = 0
  | DelaySteerAccGearedWoFallGuard =>
      Rabs (vx (st (step dt v c)) - vx (st v)) <= (vx_rate_lim (params v) + Rabs (slope (fst c))) * dt \/
      vx (st (step dt v c)) = 0
  | _ => True
  end.
Proof.
  intros dt v c S D L. destruct (step_is dt v c) as (lo & an & E). rewrite E. clear E.
  set (u := input _ _ _ _). pose proof S as (V & VR & _).
  assert (Rabs (slope u) = Rabs (slope (fst c))) as SU by reflexivity. rewrite <- SU. clearbody u. clear SU.
  assert (forall calc, (forall t, - vx_rate_lim (params v) <= vx (calc t) <= vx_rate_lim (params v)) ->
    - (vx_rate_lim (params v) * dt) <= vx (limited (params v) (runge_kutta calc dt (st v))) - vx (st v)
      <= vx_rate_lim (params v) * dt) as A.
  { intros calc B. apply limited_near; [nra | exact L |]. now apply acc_component. }
  destruct (model v); try exact I; cbn [delayed_step].
  - apply abs_range, A. intros t. now apply sat_range.
  - match goal with |- context [with_gear ?a ?b ?cc ?d] => destruct (with_gear_cases a b cc d) as [-> | ->] end.
    + left. apply abs_range, A. intros t. now apply sat_range.
    + right. reflexivity.
  - unfold fall_step. cbn zeta. destruct (_ && _); [right; reflexivity | left].
    cbn [with_accx vx]. apply abs_range. assert (0 <= Rabs (slope u)) as SP by apply Rabs_pos.
    apply limited_near; [nra | exact L |]. unfold euler, calc_fall. cbn zeta. cbn [added scaled vx].
    match goal with |- context [fall_acceleration ?a ?b u] =>
      pose proof (fall_range (vx_rate_lim (params v)) a b u VR (sat_range _ _ VR)) as F; set (k := fall_acceleration a b u) in * end.
    clearbody k. nra.
  - match goal with |- context [with_gear ?a ?b ?cc ?d] => destruct (with_gear_cases a b cc d) as [-> | ->] end.
    + left. apply abs_range, A. intros t. now apply sat_range.
    + right. reflexivity.
  - apply abs_range. rewrite vel_component. apply rk1_rate; [exact D |]. intros y. now apply sat_range.
Qed.

(** The gear stops a vehicle of any speed within one step. *)
Theorem C147_stop_refuted : forall p speed dt, 0 <= dt -> exists v c,
  model v = DelaySteerAccGeared /\ params v = p /\ vx (st v) = speed /\ vx (st (step dt v c)) = 0.
Proof.
  intros p speed dt D.
  exists (vehicle DelaySteerAccGeared p (with_vx speed zero_state) zero_input gear_park [] [] 0 0),
    (zero_input, gear_park).
  repeat split.
Qed.

(** *** C148: gears *)

Lemma forward_gear_true : forall g, forward_gear g = true <-> drives g.
Proof.
  intros g. unfold forward_gear, drives, gear_low, gear_low_2. rewrite !orb_true_iff, andb_true_iff, !Nat.leb_le, !Nat.eqb_eq.
  tauto.
Qed.
Lemma reverse_gear_true : forall g, reverse_gear g = true <-> reverses g.
Proof. intros g. unfold reverse_gear, reverses, gear_reverse, gear_reverse_2. now rewrite orb_true_iff, !Nat.eqb_eq. Qed.

Lemma geared : forall stop g prev s, (forall p t, vx (stop p t) = 0) ->
  (forall p t, px (stop p t) = px p /\ py (stop p t) = py p /\ yaw (stop p t) = yaw p) ->
  let r := with_gear stop g prev s in
  (drives g -> 0 <= vx r) /\ (reverses g -> vx r <= 0) /\ (~ drives g -> ~ reverses g -> vx r = 0) /\
  (vx r <> vx s \/ (~ drives g /\ ~ reverses g) ->
     vx r = 0 /\ px r = px prev /\ py r = py prev /\ yaw r = yaw prev).
Proof.
  intros stop g prev s Z P. cbn zeta. unfold with_gear.
  pose proof (Z prev s) as Z'. destruct (P prev s) as (P1 & P2 & P3).
  destruct (forward_gear g) eqn:F.
  - apply forward_gear_true in F. assert (~ reverses g) as NR by (unfold drives, reverses in *; lia).
    destruct (below (vx s) 0) eqn:B; [| apply below_false in B]; repeat split; try tauto; try lra.
  - assert (~ drives g) as ND by (rewrite <- forward_gear_true; congruence).
    destruct (reverse_gear g) eqn:G.
    + apply reverse_gear_true in G. destruct (below 0 (vx s)) eqn:B; [| apply below_false in B];
        repeat split; try tauto; try lra.
    + assert (~ reverses g) as NR by (rewrite <- reverse_gear_true; congruence).
      repeat split; try tauto; try lra.
Qed.

Lemma geared_step : forall dt v c, has_gears (model v) = true ->
  let r := st (step dt v c) in
  (drives (snd c) -> 0 <= vx r) /\ (reverses (snd c) -> vx r <= 0) /\
  (~ drives (snd c) -> ~ reverses (snd c) ->
     vx r = 0 /\ px r = px (st v) /\ py r = py (st v) /\ yaw r = yaw (st v)).
Proof.
  intros dt v c G. cbn zeta. destruct (step_is dt v c) as (lo & an & E). rewrite E.
  set (u := input _ _ _ _). clearbody u. clear E.
  destruct (model v); try discriminate; cbn [delayed_step];
    match goal with |- context [with_gear ?a ?b ?cc ?d] => destruct (geared a b cc d) as (A & B & C & D) end;
    try reflexivity; try (intros; repeat split); auto; apply D; auto.
Qed.

(** In forward gears the speed is never negative, in reverse gears never positive. *)
Theorem C148_direction : forall dt v cs c, has_gears (model v) = true ->
  (drives (snd c) -> 0 <= vx (st (run dt v (cs ++ [c])))) /\
  (reverses (snd c) -> vx (st (run dt v (cs ++ [c]))) <= 0).
Proof.
  intros dt v cs c G. rewrite run_snoc. destruct (run_same dt cs v) as [M _].
  rewrite <- M in G. destruct (geared_step dt (run dt v cs) c G) as (A & B & _). auto.
Qed.

(** In all other gears the vehicle stands still, whatever is commanded. *)
Theorem C148_still : forall dt v cs, has_gears (model v) = true -> cs <> [] ->
  (forall c, In c cs -> ~ drives (snd c) /\ ~ reverses (snd c)) ->
  let r := st (run dt v cs) in
  vx r = 0 /\ px r = px (st v) /\ py r = py (st v) /\ yaw r = yaw (st v).
Proof.
  intros dt v cs G N H. cbn zeta. induction cs as [| c cs IH] using rev_ind; [easy |].
  rewrite run_snoc. destruct (run_same dt cs v) as [M _]. rewrite <- M in G.
  destruct (H c) as [D R]; [apply in_app_iff; right; now left |].
  destruct (geared_step dt (run dt v cs) c G) as (_ & _ & A). destruct (A D R) as (A1 & A2 & A3 & A4).
  split; [exact A1 |]. destruct cs as [| d cs]; [auto |].
  destruct IH as (_ & I2 & I3 & I4); [discriminate | |].
  - intros e I. apply H. apply in_app_iff. now left.
  - cbn in *. split; [| split]; congruence.
Qed.

Lemma rotate_hd : forall q v, fst (rotate q v) = hd 0 (q ++ [v]).
Proof. intros [| a q] v; reflexivity. Qed.

Lemma step_due : forall dt v c, delayed (model v) = true ->
  st (step dt v c) = delayed_step (model v) (params v) (snd c) dt (due v c) (st v).
Proof.
  intros dt v c D. destruct (step_delayed dt v c D) as (E & _). rewrite E, !rotate_hd. reflexivity.
Qed.

(** When the speed would get the wrong sign, the vehicle stops where it is; otherwise the gear
    changes nothing. *)
Theorem C148_stop : forall dt v c, model v = DelaySteerAccGeared -> 0 <= vx_lim (params v) ->
  let s := limited (params v) (runge_kutta (calc_acc (params v) (due v c)) dt (st v)) in
  let r := st (step dt v c) in
  ((drives (snd c) /\ vx s < 0) \/ (reverses (snd c) /\ 0 < vx s) ->
     vx r = 0 /\ px r = px (st v) /\ py r = py (st v) /\ yaw r = yaw (st v) /\
     accx r = - vx (st v) / Rmax dt minimum_dt) /\
  ((drives (snd c) /\ 0 <= vx s) \/ (reverses (snd c) /\ vx s <= 0) -> r = s).
Proof.
  intros dt v c M L. cbn zeta. rewrite step_due by now rewrite M. rewrite M. cbn [delayed_step].
  set (s := limited _ _). clearbody s. unfold with_gear. split.
  - intros [[D V] | [D V]].
    + apply forward_gear_true in D. rewrite D. assert (below (vx s) 0 = true) as -> by now apply below_true.
      cbn. repeat split. unfold Rdiv. ring.
    + assert (forward_gear (snd c) = false) as ->.
      { apply not_true_iff_false. rewrite forward_gear_true. unfold drives, reverses in *. lia. }
      apply reverse_gear_true in D. rewrite D. assert (below 0 (vx s) = true) as -> by now apply below_true.
      cbn. repeat split. unfold Rdiv. ring.
  - intros [[D V] | [D V]].
    + apply forward_gear_true in D. rewrite D. now assert (below (vx s) 0 = false) as -> by now apply below_false.
    + assert (forward_gear (snd c) = false) as ->.
      { apply not_true_iff_false. rewrite forward_gear_true. unfold drives, reverses in *. lia. }
      apply reverse_gear_true in D. rewrite D. now assert (below 0 (vx s) = false) as -> by now apply below_false.
Qed.

Lemma repeat_snoc : forall (A : Type) (x : A) n, repeat x (S n) = repeat x n ++ [x].
Proof. induction n as [| n IH]; [reflexivity |]. cbn [repeat app] in *. now rewrite IH at 1. Qed.

Lemma sat_zero : forall l, 0 <= l -> sat 0 l (- l) = 0.
Proof. intros l L. apply sat_inside. lra. Qed.

Lemma parked_step : forall p dt road s, sensible p -> 0 < vx s <= vx_lim p -> pedal s = 0 ->
  let r := fall_step p dt (input 0 0 gear_park road) s in
  vx r = vx s /\ pedal r = 0 /\ px r = px s + dt * (vx s * cos (yaw s)) /\ py r = py s + dt * (vx s * sin (yaw s)).
Proof.
  intros p dt road s (VL & VR & _ & _ & TC & _) V P. cbn zeta.
  assert (let n := limited p (euler (calc_fall p (input 0 0 gear_park road)) dt s) in
          vx n = vx s /\ pedal n = 0 /\ px n = px s + dt * (vx s * cos (yaw s)) /\
          py n = py s + dt * (vx s * sin (yaw s))) as N.
  { cbn zeta. unfold euler, calc_fall. cbn zeta. cbn [longitudinal angle slope gear_input].
    rewrite (sat_inside (vx s)) by lra. rewrite P, !sat_zero by assumption.
    cbn [added scaled limited with_vx px py yaw vx pedal].
    unfold fall_acceleration. cbn [gear_input].
    assert (at_most 0 0 = true) as -> by (apply at_most_true; lra). cbn [gear_none gear_park Nat.eqb orb].
    rewrite P. replace (vx s + dt * 0) with (vx s) by ring. split; [| split; [| auto]].
    - rewrite Rmin_left by lra. apply Rmax_right. lra.
    - field. lra. }
  unfold fall_step. set (n := limited p _) in *. clearbody n. cbn zeta in *. destruct N as (N1 & N2 & N3 & N4).
  assert (at_most (vx s * vx n) 0 = false) as -> by (apply at_most_false; rewrite N1; nra).
  cbn [andb with_accx vx pedal px py]. auto.
Qed.

(** Without the fall guard the gears do not stop the vehicle: in gear park it rolls on for ever, with
    its speed. *)
Theorem C148_park_refuted : forall p speed road dt, sensible p -> 0 < speed <= vx_lim p ->
  exists v, model v = DelaySteerAccGearedWoFallGuard /\ params v = p /\ vx (st v) = speed /\
    forall n,
      let r k := st (run dt v (repeat (input 0 0 gear_park road, gear_park) k)) in
      vx (r n) = speed /\
      (px (r (S n)) - px (r n)) * (px (r (S n)) - px (r n)) + (py (r (S n)) - py (r n)) * (py (r (S n)) - py (r n))
        = (speed * dt) * (speed * dt).
Proof.
  intros p speed road dt S V.
  exists (vehicle DelaySteerAccGearedWoFallGuard p (state 0 0 0 speed 0 0 0) zero_input gear_park [] [] 0 0).
  repeat (split; [reflexivity |]). set (v := vehicle _ _ _ _ _ _ _ _ _). set (c := (_, _)).
  assert (forall n, let w := run dt v (repeat c n) in
            model w = DelaySteerAccGearedWoFallGuard /\ params w = p /\ long_queue w = [] /\ steer_queue w = [] /\
            vx (st w) = speed /\ pedal (st w) = 0) as I.
  { induction n as [| n IH]; [cbn; auto 10 |]. cbn zeta. rewrite repeat_snoc, run_snoc.
    cbn zeta in IH. set (w := run dt v (repeat c n)) in *. clearbody w. destruct IH as (M & P & Q1 & Q2 & X & Y).
    destruct (step_same dt w c) as [M' P']. assert (delayed (model w) = true) as D by now rewrite M.
    destruct (step_delayed dt w c D) as (_ & E2 & E3). rewrite Q1 in E2. rewrite Q2 in E3.
    split; [congruence |]. split; [congruence |]. split; [exact E2 |]. split; [exact E3 |].
    rewrite step_due by exact D. unfold due, due_longitudinal, due_angle. rewrite M, P, Q1, Q2.
    cbn [delayed_step app hd c fst snd longitudinal angle gear_input slope].
    destruct (parked_step p dt road (st w) S) as (A & B & _); [now rewrite X | exact Y |]. split; congruence. }
  intros n. cbn zeta. destruct (I n) as (M & P & Q1 & Q2 & X & Y). split; [exact X |].
  rewrite repeat_snoc, run_snoc. set (w := run dt v (repeat c n)) in *. clearbody w.
  rewrite step_due by now rewrite M. unfold due, due_longitudinal, due_angle. rewrite M, P, Q1, Q2.
  cbn [delayed_step app hd c fst snd longitudinal angle gear_input slope].
  destruct (parked_step p dt road (st w) S) as (_ & _ & A & B); [now rewrite X | exact Y |]. rewrite A, B, X.
  pose proof (sin2_cos2 (yaw (st w))) as T. unfold Rsqr in T.
  replace (px (st w) + dt * (speed * cos (yaw (st w))) - px (st w)) with (speed * dt * cos (yaw (st w))) by ring.
  replace (py (st w) + dt * (speed * sin (yaw (st w))) - py (st w)) with (speed * dt * sin (yaw (st w))) by ring.
  transitivity (speed * dt * (speed * dt) * (sin (yaw (st w)) * sin (yaw (st w)) + cos (yaw (st w)) * cos (yaw (st w)))).
  - ring.
  - rewrite T. ring.
Qed.

(** *** C149: steering *)

Lemma rk1_still : forall f dt x, f x = 0 -> rk1 f dt x = x.
Proof.
  intros f dt x H. unfold rk1. cbv zeta. rewrite H.
  replace (x + 1 / 2 * dt * 0) with x by ring. rewrite H.
  replace (x + 1 / 2 * dt * 0) with x by ring. rewrite H.
  replace (x + dt * 0) with x by ring. rewrite H. ring.
Qed.

(** What one step does to an angle [x], steered to [T], when it becomes [y] *)
Definition steered (rate band dt x y T : R) : Prop :=
  between_numbers x y T /\ Rabs (y - x) <= rate * dt /\
  (Rabs (x - T) <= band -> y = x) /\
  (0 < rate -> band < Rabs (x - T) -> Rabs (y - T) < Rabs (x - T)).

Lemma steer_rk : forall p f dt x T, sensible p -> 0 < dt <= steer_time_constant p ->
  (forall y, x <= y <= T \/ T <= y <= x -> f y = steer_rate p y T) ->
  (forall y, - steer_rate_lim p <= f y <= steer_rate_lim p) ->
  steered (steer_rate_lim p) (steer_dead_band p) dt x (rk1 f dt x) T.
Proof.
  intros p f dt x T S D F L. pose proof S as (_ & _ & _ & _ & _ & _ & BD & _).
  assert (f x = steer_rate p x T) as FX by (apply F; lra).
  assert (Rabs (rk1 f dt x - x) <= steer_rate_lim p * dt) as R
    by (apply abs_range, rk1_rate; [lra | exact L]).
  assert (Rabs (x - T) <= steer_dead_band p -> rk1 f dt x = x) as Z.
  { intros H. apply rk1_still. rewrite FX. now apply rate_zero. }
  destruct (Rle_dec x T) as [C | C].
  - destruct (rk1_up f dt (steer_time_constant p) x T D C) as [A B].
    { intros y Y. rewrite F by lra. apply rate_up; [exact S | lra]. }
    destruct (rate_up p T x S C) as [G _]. rewrite <- FX in G.
    assert (x <= rk1 f dt x) as X by (apply Rle_trans with (2 := A); nra).
    split; [left; lra |]. split; [exact R |]. split; [exact Z |]. intros P Q.
    destruct (rate_moves p T x S P Q) as [M _]. rewrite <- FX in M.
    assert (x < T) as XT. { destruct (Rle_lt_or_eq_dec x T C) as [| ->]; [assumption |].
      replace (T - T) with 0 in Q by ring. rewrite Rabs_R0 in Q. lra. }
    specialize (M XT). rewrite (Rabs_left1 (x - T)) by lra. rewrite Rabs_left1 by lra.
    assert (x < x + 1 / 6 * dt * f x) by nra. lra.
  - destruct (rk1_down f dt (steer_time_constant p) x T D ltac:(lra)) as [A B].
    { intros y Y. rewrite F by lra. apply rate_down; [exact S | lra]. }
    destruct (rate_down p T x S ltac:(lra)) as [_ G]. rewrite <- FX in G.
    assert (rk1 f dt x <= x) as X by (apply Rle_trans with (1 := B); nra).
    split; [right; lra |]. split; [exact R |]. split; [exact Z |]. intros P Q.
    destruct (rate_moves p T x S P Q) as [_ M]. rewrite <- FX in M. specialize (M ltac:(lra)).
    rewrite (Rabs_right (x - T)) by lra. rewrite Rabs_right by lra.
    assert (x + 1 / 6 * dt * f x < x) by nra. lra.
Qed.

Lemma steer_euler : forall p dt x T, sensible p -> 0 < dt <= steer_time_constant p ->
  steered (steer_rate_lim p) (steer_dead_band p) dt x (x + dt * steer_rate p x T) T.
Proof.
  intros p dt x T S D. pose proof S as (_ & _ & _ & _ & _ & TC & BD & _).
  pose proof (rate_limit p T x S) as L.
  assert (Rabs (x + dt * steer_rate p x T - x) <= steer_rate_lim p * dt) as R by (apply abs_range; nra).
  assert (Rabs (x - T) <= steer_dead_band p -> x + dt * steer_rate p x T = x) as Z.
  { intros H. rewrite (rate_zero p T x S H). ring. }
  assert (steer_time_constant p * ((T - x) / steer_time_constant p) = T - x) as K by (field; lra).
  pose proof (rate_moves p T x S) as M. pose proof (rate_up p T x S) as U. pose proof (rate_down p T x S) as W.
  set (r := steer_rate p x T) in *. clearbody r. set (q := (T - x) / steer_time_constant p) in *. clearbody q.
  destruct (Rtotal_order x T) as [C | [C | C]].
  - destruct (U ltac:(lra)) as [A B]. assert (dt * r <= T - x) by nra.
    split; [left; nra |]. split; [exact R |]. split; [exact Z |]. intros P Q.
    destruct (M P Q) as [M' _]. specialize (M' C).
    rewrite (Rabs_left1 (x - T)) by lra. rewrite Rabs_left1 by lra. nra.
  - destruct (U ltac:(lra)) as [A B]. destruct (W ltac:(lra)) as [A' B']. assert (r = 0) as -> by lra.
    split; [left; lra |]. split; [exact R |]. split; [exact Z |]. intros P Q.
    subst x. replace (T - T) with 0 in Q by ring. rewrite Rabs_R0 in Q. lra.
  - destruct (W ltac:(lra)) as [A B]. assert (T - x <= dt * r) by nra.
    split; [right; nra |]. split; [exact R |]. split; [exact Z |]. intros P Q.
    destruct (M P Q) as [_ M']. specialize (M' C).
    rewrite (Rabs_right (x - T)) by lra. rewrite Rabs_right by lra. nra.
Qed.

(** Without dead band *)
Definition no_band (p : Parameters) : Parameters :=
  parameters (vx_lim p) (vx_rate_lim p) (steer_lim p) (steer_rate_lim p) (wheelbase p) (time_constant p)
    (steer_time_constant p) 0 (steer_bias p) (acc_factor p) (steer_factor p).

Lemma no_band_rate : forall p y T,
  sat (- (y - T) / steer_time_constant p) (steer_rate_lim p) (- steer_rate_lim p) = steer_rate (no_band p) y T.
Proof.
  intros p y T. unfold steer_rate. cbn [no_band steer_time_constant steer_rate_lim steer_dead_band].
  do 3 f_equal. unfold dead_banded. destruct (below 0 (y - T)) eqn:A; [ring |].
  destruct (below (y - T) (- 0)) eqn:B; [ring |]. apply below_false in A. apply below_false in B. lra.
Qed.

Lemma with_gear_steer : forall stop g prev s, (forall a b, steer (stop a b) = steer b) ->
  steer (with_gear stop g prev s) = steer s.
Proof.
  intros stop g prev s H. destruct (with_gear_cases stop g prev s) as [-> | ->]; [reflexivity | apply H].
Qed.

(** One step turns the wheels towards the angle that is due, not past it, not faster than allowed,
    and not at all within the dead band. *)
Theorem C149_step : forall dt v c, delayed (model v) = true -> sensible (params v) ->
  0 < dt <= steer_time_constant (params v) ->
  (model v = DelaySteerVel -> Rabs (steer (st v)) <= steer_lim (params v)) ->
  let x := get_steer v in
  let y := get_steer (step dt v c) in
  let T := aimed_angle (model v) (params v) (due_angle v c) in
  let band := match model v with DelaySteerMapAccGeared _ => 0 | _ => steer_dead_band (params v) end in
  between_numbers x y T /\ Rabs (y - x) <= steer_rate_lim (params v) * dt /\
  (Rabs (x - T) <= band -> y = x) /\
  (0 < steer_rate_lim (params v) -> band < Rabs (x - T) -> Rabs (y - T) < Rabs (x - T)).
Proof.
  intros dt v c D S L X. cbn zeta.
  match goal with |- between_numbers ?x ?y ?T /\ Rabs _ <= ?r * _ /\ (_ <= ?b -> _) /\ _ => change (steered r b dt x y T) end.
  unfold get_steer. destruct (step_same dt v c) as [M P]. rewrite M, P, step_due by exact D.
  destruct (model v); try discriminate; cbn [delayed_step aimed_angle].
  - apply (steer_rk (params v) (fun y => steer_rate (params v) y (wanted_angle (params v) (due_angle v c)))
             dt (steer (st v)) (wanted_angle (params v) (due_angle v c)) S L).
    + reflexivity.
    + intros y. now apply rate_limit.
  - rewrite with_gear_steer by reflexivity.
    apply (steer_rk (params v) (fun y => steer_rate (params v) y (wanted_angle (params v) (due_angle v c)))
             dt (steer (st v)) (wanted_angle (params v) (due_angle v c)) S L).
    + reflexivity.
    + intros y. now apply rate_limit.
  - pose proof (steer_euler (params v) dt (steer (st v) + steer_bias (params v))
                  (wanted_angle (params v) (due_angle v c)) S L) as E.
    assert (steer (fall_step (params v) dt (due v c) (st v)) + steer_bias (params v) =
            steer (st v) + steer_bias (params v) +
            dt * steer_rate (params v) (steer (st v) + steer_bias (params v)) (wanted_angle (params v) (due_angle v c))) as ->;
      [| exact E].
    unfold fall_step. cbn zeta. destruct (_ && _); cbn [with_accx with_vx limited steer];
      unfold euler, calc_fall; cbn zeta; cbn [added scaled steer]; unfold due, wanted_angle, sat;
      cbn [angle]; ring.
  - rewrite with_gear_steer by reflexivity.
    assert (sensible (no_band (params v))) as S'
      by (destruct S as (S1 & S2 & S3 & S4 & S5 & S6 & S7 & S8 & S9); repeat split; cbn; auto; lra).
    apply (steer_rk (no_band (params v))
             (fun y => sat (- (y - Rmax (Rmin (due_angle v c) (steer_lim (params v))) (- steer_lim (params v)))
                              / steer_time_constant (params v)) (steer_rate_lim (params v)) (- steer_rate_lim (params v)))
             dt (steer (st v))
             (Rmax (Rmin (due_angle v c) (steer_lim (params v))) (- steer_lim (params v))) S' L).
    + intros y _. apply no_band_rate.
    + intros y. cbv beta. destruct S as (_ & _ & _ & SR & _). now apply sat_range.
  - specialize (X eq_refl). apply range_abs in X. pose proof S as (_ & _ & SL & _).
    pose proof (sat_range (due_angle v c) (steer_lim (params v)) SL) as R. unfold sat in R.
    apply (steer_rk (params v)
             (fun y => steer_rate (params v) (sat y (steer_lim (params v)) (- steer_lim (params v)))
                (Rmax (Rmin (due_angle v c) (steer_lim (params v))) (- steer_lim (params v)))) dt (steer (st v))
             (Rmax (Rmin (due_angle v c) (steer_lim (params v))) (- steer_lim (params v))) S L).
    + intros y Y. cbv beta. rewrite sat_inside by lra. reflexivity.
    + intros y. now apply rate_limit.
Qed.

(** The wheels stay within the limit, for factors not above one. *)
Theorem C149_limit : forall dt v cs, delayed (model v) = true -> sensible (params v) ->
  0 < dt <= steer_time_constant (params v) -> steer_factor (params v) <= 1 ->
  Rabs (get_steer v) <= steer_lim (params v) ->
  Rabs (get_steer (run dt v cs)) <= steer_lim (params v).
Proof.
  intros dt v cs D S L F. revert v D S L F. induction cs as [| c cs IH]; intros v D S L F X; [exact X |].
  cbn [run fold_left]. destruct (step_same dt v c) as [M P]. rewrite <- P.
  apply IH; rewrite ?M, ?P; try assumption.
  destruct (C149_step dt v c D S L) as (B & _).
  { intros E. unfold get_steer in X. now rewrite E in X. }
  pose proof S as (_ & _ & SL & _ & _ & _ & _ & _ & SF).
  pose proof (sat_range (due_angle v c) (steer_lim (params v)) SL) as R. unfold sat in R.
  assert (- steer_lim (params v) <= aimed_angle (model v) (params v) (due_angle v c) <= steer_lim (params v)) as A.
  { unfold aimed_angle, wanted_angle. set (k := Rmax _ _) in *. clearbody k.
    assert (- steer_lim (params v) <= k * steer_factor (params v) <= steer_lim (params v)) by nra.
    destruct (model v); assumption. }
  apply range_abs in X. apply abs_range. unfold between_numbers in B. lra.
Qed.

(** A factor above one takes the wheels past the limit. *)
Theorem C149_factor_refuted : exists p v c, sensible p /\ params v = p /\ model v = DelaySteerAcc /\
  get_steer v = steer_lim p /\ forall dt, 0 < dt <= steer_time_constant p -> steer_lim p < get_steer (step dt v c).
Proof.
  exists (parameters 50 7 1 5 3 1 1 0 0 1 2),
    (vehicle DelaySteerAcc (parameters 50 7 1 5 3 1 1 0 0 1 2) (state 0 0 0 0 1 0 0) zero_input 0 [] [] 0 0),
    (input 0 1 0 0, gear_drive).
  split; [unfold sensible; cbn; lra |]. repeat (split; [reflexivity |]). intros dt D.
  match goal with |- context [step dt ?v ?c] => destruct (C149_step dt v c) as (B & _ & _ & H) end;
    [reflexivity | unfold sensible; cbn; lra | exact D | discriminate |].
  revert B H. match goal with |- context [get_steer (step dt ?v ?c)] => set (y := get_steer (step dt v c)) end. clearbody y.
  unfold due_angle. cbn [get_steer model params st steer steer_lim steer_rate_lim steer_dead_band aimed_angle steer_queue app hd fst angle].
  unfold wanted_angle. cbn [steer_lim steer_factor].
  rewrite Rmin_left by lra. rewrite Rmax_left by lra. intros B H.
  specialize (H ltac:(lra)). rewrite (Rabs_left (1 - 1 * 2)) in H by lra. specialize (H ltac:(lra)).
  unfold Rabs in H. destruct (Rcase_abs _); lra.
Qed.

(** *** C150: standing on a slope, without fall guard *)

Lemma pedal_next : forall p u dt s,
  pedal (fall_step p dt u s) =
  pedal s + dt * (- (sat (pedal s) (vx_rate_lim p) (- vx_rate_lim p) - aimed_acceleration p (longitudinal u)) / time_constant p).
Proof. intros p u dt s. unfold fall_step. cbn zeta. destruct (_ && _); reflexivity. Qed.

Lemma over_between : forall dt tau k, 0 < dt <= tau ->
  (0 <= k -> 0 <= dt * (k / tau) <= k) /\ (k <= 0 -> k <= dt * (k / tau) <= 0).
Proof.
  intros dt tau k D. assert (tau * (k / tau) = k) as K by (field; lra). set (q := k / tau) in *. clearbody q.
  split; intros H.
  - assert (0 <= q) by nra. nra.
  - assert (q <= 0) by nra. nra.
Qed.

(** The pedal stays pressed. *)
Lemma pedal_pressed : forall p u dt s b, sensible p -> 0 < dt <= time_constant p -> 0 <= b <= vx_rate_lim p ->
  pedal s <= - b -> aimed_acceleration p (longitudinal u) <= - b -> pedal (fall_step p dt u s) <= - b.
Proof.
  intros p u dt s b S D B P A. rewrite pedal_next. set (a := aimed_acceleration _ _) in *. clearbody a.
  destruct (Rle_dec (- vx_rate_lim p) (pedal s)) as [L | L].
  - rewrite sat_inside by lra. destruct (over_between dt (time_constant p) (- (pedal s - a)) D) as [U W].
    destruct (Rle_dec a (pedal s)); [destruct W | destruct U]; lra.
  - assert (sat (pedal s) (vx_rate_lim p) (- vx_rate_lim p) = - vx_rate_lim p) as ->
      by (unfold sat; rewrite Rmin_left by lra; apply Rmax_right; lra).
    destruct (over_between dt (time_constant p) (- (- vx_rate_lim p - a)) D) as [U W].
    destruct (Rle_dec 0 (- (- vx_rate_lim p - a))); [destruct U | destruct W]; lra.
Qed.

Lemma held_step : forall p u dt s b, sensible p -> 0 < dt <= time_constant p -> 0 <= b <= vx_rate_lim p ->
  vx s = 0 -> pedal s <= - b -> Rabs (slope u) <= b ->
  let r := fall_step p dt u s in vx r = 0 /\ px r = px s /\ py r = py s /\ yaw r = yaw s.
Proof.
  intros p u dt s b S D B V P L. cbn zeta. pose proof S as (VL & VR & _).
  assert (fall_acceleration 0 (sat (pedal s) (vx_rate_lim p) (- vx_rate_lim p)) u = 0) as A.
  { assert (sat (pedal s) (vx_rate_lim p) (- vx_rate_lim p) <= - b) as K.
    { unfold sat. apply Rmax_lub; [| lra]. apply Rle_trans with (2 := P). apply Rmin_l. }
    set (k := sat _ _ _) in *. clearbody k. unfold fall_acceleration. destruct (at_most 0 k) eqn:E.
    - apply at_most_true in E. assert (k = 0) as -> by lra. assert (slope u = 0) as ->.
      { assert (b = 0) as -> by lra. unfold Rabs in L. destruct (Rcase_abs (slope u)); lra. }
      destruct (_ || _); [reflexivity |]. destruct (_ =? _)%nat; [reflexivity |]. destruct (reverse_gear _); ring.
    - assert (below 0 0 = false) as -> by (apply below_false; lra).
      now assert (at_most (Rabs (slope u)) (- k) = true) as -> by (apply at_most_true; lra). }
  assert (vx (limited p (euler (calc_fall p u) dt s)) = 0) as N.
  { cbn [limited with_vx euler added vx]. unfold calc_fall. cbn zeta. cbn [scaled vx]. rewrite V, sat_zero, A by assumption.
    replace (0 + dt * 0) with 0 by ring. rewrite Rmin_left by lra. apply Rmax_right. lra. }
  unfold fall_step. set (n := limited p _) in *.
  assert (px n = px s /\ py n = py s /\ yaw n = yaw s) as (Q1 & Q2 & Q3).
  { unfold n, limited, euler, calc_fall. cbn zeta. cbn [with_vx added scaled px py yaw]. rewrite V, sat_zero by assumption.
    unfold Rdiv. repeat split; ring. }
  clearbody n. cbn zeta. destruct (_ && _); cbn [with_accx with_vx vx px py yaw]; auto.
Qed.

(** A pedal pressed at least as hard as the slope pulls holds the vehicle, for ever. *)
Theorem C150_holds : forall dt v cs b, model v = DelaySteerAccGearedWoFallGuard -> sensible (params v) ->
  0 < dt <= time_constant (params v) -> 0 <= b <= vx_rate_lim (params v) ->
  vx (st v) = 0 -> pedal (st v) <= - b ->
  (forall a, In a (long_queue v) -> aimed_acceleration (params v) a <= - b) ->
  (forall c, In c cs -> aimed_acceleration (params v) (longitudinal (fst c)) <= - b /\ Rabs (slope (fst c)) <= b) ->
  let r := st (run dt v cs) in
  vx r = 0 /\ px r = px (st v) /\ py r = py (st v) /\ yaw r = yaw (st v).
Proof.
  intros dt v cs b M S D B. revert v M S D B. cbn zeta.
  induction cs as [| c cs IH]; intros v M S D B V P Q C; [cbn; auto |]. cbn [run fold_left].
  assert (delayed (model v) = true) as DL by now rewrite M.
  destruct (step_same dt v c) as [M' P']. destruct (step_delayed dt v c DL) as (_ & E2 & _).
  pose proof (rotate_front (long_queue v) (longitudinal (fst c))) as RF.
  assert (forall a, In a (long_queue v ++ [longitudinal (fst c)]) -> aimed_acceleration (params v) a <= - b) as A.
  { intros a I. apply in_app_iff in I. destruct I as [I | [<- | []]]; [now apply Q |]. apply C. now left. }
  assert (st (step dt v c) = fall_step (params v) dt (due v c) (st v)) as E by (rewrite step_due, M by exact DL; reflexivity).
  assert (aimed_acceleration (params v) (longitudinal (due v c)) <= - b) as DU.
  { apply A. unfold due, due_longitudinal. cbn [longitudinal]. rewrite <- RF. now left. }
  destruct (held_step (params v) (due v c) dt (st v) b S D B V P) as (H1 & H2 & H3 & H4).
  { apply (C c). now left. }
  destruct (IH (step dt v c)) as (I1 & I2 & I3 & I4); rewrite ?M', ?P'; try assumption.
  - rewrite E. exact H1.
  - rewrite E. now apply pedal_pressed.
  - intros a I. apply A. rewrite <- RF. right. now rewrite <- E2.
  - intros d I. apply C. now right.
  - rewrite E in I2, I3, I4. unfold run in *. split; [exact I1 |]. split; [congruence |]. split; congruence.
Qed.

(** A pedal pressed less lets it roll down. *)
Theorem C150_rolls : forall dt v c, model v = DelaySteerAccGearedWoFallGuard -> sensible (params v) ->
  0 < dt <= time_constant (params v) -> vx (st v) = 0 ->
  - vx_rate_lim (params v) <= pedal (st v) < 0 -> - Rabs (slope (fst c)) < pedal (st v) ->
  - Rabs (slope (fst c)) < aimed_acceleration (params v) (due_longitudinal v c) ->
  Rabs (slope (fst c)) * dt <= vx_lim (params v) ->
  vx (st (step dt v c)) = slope (fst c) * dt.
Proof.
  intros dt v c M S D V P W A L. rewrite step_due, M by now rewrite M. cbn [delayed_step].
  pose proof S as (VL & VR & _).
  assert (- Rabs (slope (fst c)) < pedal (fall_step (params v) dt (due v c) (st v))) as PN.
  { rewrite pedal_next. change (longitudinal (due v c)) with (due_longitudinal v c). set (a := aimed_acceleration _ _) in *. clearbody a.
    rewrite sat_inside by lra. destruct (over_between dt (time_constant (params v)) (- (pedal (st v) - a)) D) as [U X].
    destruct (Rle_dec a (pedal (st v))); [destruct X | destruct U]; lra. }
  assert (pedal (limited (params v) (euler (calc_fall (params v) (due v c)) dt (st v))) =
          pedal (fall_step (params v) dt (due v c) (st v))) as PE
    by (unfold fall_step; cbn zeta; destruct (_ && _); reflexivity).
  assert (vx (limited (params v) (euler (calc_fall (params v) (due v c)) dt (st v))) = slope (fst c) * dt) as VE.
  { cbn [limited with_vx euler added vx]. unfold calc_fall. cbn zeta. cbn [scaled vx]. rewrite V, sat_zero by assumption.
    rewrite (sat_inside (pedal (st v))) by lra. unfold fall_acceleration. change (slope (due v c)) with (slope (fst c)).
    assert (at_most 0 (pedal (st v)) = false) as -> by (apply at_most_false; lra).
    assert (below 0 0 = false) as -> by (apply below_false; lra).
    assert (at_most (Rabs (slope (fst c))) (- pedal (st v)) = false) as -> by (apply at_most_false; lra).
    assert (- vx_lim (params v) <= slope (fst c) * dt <= vx_lim (params v)) as R.
    { unfold Rabs in L. destruct (Rcase_abs (slope (fst c))); nra. }
    rewrite Rmin_left by lra. rewrite Rmax_right; lra. }
  unfold fall_step. set (n := limited _ _) in *. clearbody n. cbn zeta. change (slope (due v c)) with (slope (fst c)).
  assert (at_most (Rabs (slope (fst c))) (- pedal n) = false) as -> by (apply at_most_false; lra).
  rewrite andb_false_r. exact VE.
Qed.

(** Braking hard enough never turns the direction. *)
Theorem C150_brakes : forall dt v c, model v = DelaySteerAccGearedWoFallGuard ->
  Rabs (slope (fst c)) <= - pedal (st (step dt v c)) ->
  (0 <= vx (st v) -> 0 <= vx (st (step dt v c))) /\ (vx (st v) <= 0 -> vx (st (step dt v c)) <= 0).
Proof.
  intros dt v c M. rewrite step_due, M by now rewrite M. cbn [delayed_step].
  unfold fall_step. set (n := limited _ _). clearbody n. cbn zeta. change (slope (due v c)) with (slope (fst c)).
  intros P. assert (at_most (Rabs (slope (fst c))) (- pedal n) = true) as ->.
  { apply at_most_true. destruct (_ && _); exact P. }
  rewrite andb_true_r. destruct (at_most (vx (st v) * vx n) 0) eqn:E; cbn [with_accx with_vx vx]; [lra |].
  apply at_most_false in E. split; intros H; nra.
Qed.

(** *** C151: the reported acceleration *)

(** For these models it is the change of the speed. *)
Theorem C151_change : forall dt v c, minimum_dt <= dt ->
  match model v with DelaySteerAccGearedWoFallGuard | DelaySteerVel | IdealSteerAccGeared => True | _ => False end ->
  get_ax (step dt v c) * dt = get_vx (step dt v c) - get_vx v.
Proof.
  intros dt v c D M. assert (0 < dt) as DP by (unfold minimum_dt in D; lra).
  unfold step, update. cbn [set_command model params fst snd inp long_queue steer_queue].
  unfold get_ax, get_vx. destruct c as [u g]. cbn [set_command model fst snd inp].
  destruct (delayed (model v)) eqn:DL; [destruct (rotate _ _) as [lo lq]; destruct (rotate _ _) as [an sq] |];
    destruct (model v); try contradiction; try discriminate; cbn [model ax st vx accx delayed_step set_command].
  - unfold fall_step. cbn zeta. cbn [with_accx accx vx]. field. lra.
  - field. lra.
  - rewrite Rmax_left by exact D. field. lra.
Qed.

Lemma ideal_vel_step : forall dt v c, model v = IdealSteerVel ->
  get_vx (step dt v c) = longitudinal (fst c) /\ prev_vx (step dt v c) = longitudinal (fst c) /\
  get_ax (step dt v c) = (longitudinal (fst c) - prev_vx v) / dt.
Proof.
  intros dt v [u g] M. unfold step, update. cbn [set_command model params fst snd inp long_queue steer_queue].
  unfold get_vx, get_ax. rewrite M. cbn. auto.
Qed.

Theorem C151_commanded : forall dt v cs c, model v = IdealSteerVel -> 0 < dt -> cs <> [] ->
  get_ax (run dt v (cs ++ [c])) * dt = get_vx (run dt v (cs ++ [c])) - get_vx (run dt v cs) /\
  get_vx (run dt v (cs ++ [c])) = longitudinal (fst c).
Proof.
  intros dt v cs c M D N. rewrite run_snoc.
  assert (prev_vx (run dt v cs) = get_vx (run dt v cs)) as P.
  { destruct cs as [| d cs _] using rev_ind; [easy |]. rewrite run_snoc.
    destruct (ideal_vel_step dt (run dt v cs) d) as (A & B & _); [now rewrite (proj1 (run_same dt cs v)) |]. congruence. }
  destruct (ideal_vel_step dt (run dt v cs) c) as (A & _ & B); [now rewrite (proj1 (run_same dt cs v)) |].
  rewrite A, B, P. split; [field; lra | reflexivity].
Qed.

Lemma acc_constant : forall p u dt s a, time_constant p <> 0 -> accx s = a ->
  sat a (vx_rate_lim p) (- vx_rate_lim p) = a -> aimed_acceleration p (longitudinal u) = a ->
  vx (runge_kutta (calc_acc p u) dt s) = vx s + dt * a /\ accx (runge_kutta (calc_acc p u) dt s) = a.
Proof.
  intros p u dt s a T A S D.
  assert (forall t, accx t = a -> vx (calc_acc p u t) = a /\ accx (calc_acc p u t) = 0) as K.
  { intros t E. unfold calc_acc. cbn zeta. cbn [vx accx]. rewrite E, S. split; [reflexivity |].
    change (sat (longitudinal u) (vx_rate_lim p) (- vx_rate_lim p) * acc_factor p) with (aimed_acceleration p (longitudinal u)).
    rewrite D. unfold Rdiv. ring. }
  assert (forall t k h, accx t = a -> accx k = 0 -> accx (added t (scaled h k)) = a) as X.
  { intros t k h E F. cbn. rewrite E, F. ring. }
  unfold runge_kutta. cbn zeta.
  set (k1 := calc_acc p u s). destruct (K s A) as [K1 L1]. fold k1 in K1, L1.
  set (k2 := calc_acc p u (added s (scaled (1 / 2 * dt) k1))).
  destruct (K _ (X s k1 (1 / 2 * dt) A L1)) as [K2 L2]. fold k2 in K2, L2.
  set (k3 := calc_acc p u (added s (scaled (1 / 2 * dt) k2))).
  destruct (K _ (X s k2 (1 / 2 * dt) A L2)) as [K3 L3]. fold k3 in K3, L3.
  set (k4 := calc_acc p u (added s (scaled dt k3))).
  destruct (K _ (X s k3 dt A L3)) as [K4 L4]. fold k4 in K4, L4.
  clearbody k1 k2 k3 k4. cbn [added scaled vx accx]. rewrite K1, K2, K3, K4, L1, L2, L3, L4, A. split; field.
Qed.

(** The other models go on reporting an acceleration at the limit of the speed. *)
Theorem C151_limit_refuted : forall p a, sensible p -> 0 < a <= vx_rate_lim p -> acc_factor p = 1 ->
  exists v c, model v = DelaySteerAccGeared /\ params v = p /\
    forall dt n, 0 < dt ->
      let w := run dt v (repeat c n) in
      get_vx w = vx_lim p /\ get_vx (step dt w c) = get_vx w /\ get_ax (step dt w c) = a.
Proof.
  intros p a S A F. pose proof S as (VL & VR & _ & _ & TC & _).
  exists (vehicle DelaySteerAccGeared p (state 0 0 0 (vx_lim p) 0 a 0) zero_input gear_drive [] [] 0 0),
    (input a 0 0 0, gear_drive).
  split; [reflexivity |]. split; [reflexivity |]. intros dt n D. cbn zeta. set (v := vehicle _ _ _ _ _ _ _ _ _). set (c := (_, _)).
  assert (forall w, model w = DelaySteerAccGeared -> params w = p -> long_queue w = [] -> steer_queue w = [] ->
            vx (st w) = vx_lim p -> accx (st w) = a ->
            long_queue (step dt w c) = [] /\ steer_queue (step dt w c) = [] /\
            vx (st (step dt w c)) = vx_lim p /\ accx (st (step dt w c)) = a) as K.
  { intros w M P Q1 Q2 X Y. assert (delayed (model w) = true) as DL by now rewrite M.
    destruct (step_delayed dt w c DL) as (_ & E2 & E3). rewrite Q1 in E2. rewrite Q2 in E3.
    split; [exact E2 |]. split; [exact E3 |]. rewrite step_due by exact DL. rewrite M, P.
    unfold due, due_longitudinal, due_angle. rewrite Q1, Q2. cbn [app hd c fst snd longitudinal angle gear_input slope delayed_step].
    destruct (acc_constant p (input a 0 0 0) dt (st w) a) as [B C]; [lra | exact Y | apply sat_inside; lra | |].
    { unfold aimed_acceleration. cbn [longitudinal]. rewrite F, Rmin_left, Rmax_left by lra. ring. }
    set (r := runge_kutta _ _ _) in *. clearbody r.
    assert (vx (limited p r) = vx_lim p) as LV.
    { cbn [limited with_vx vx]. rewrite B, X. rewrite Rmin_right by nra. apply Rmax_right. lra. }
    unfold with_gear. cbn [gear_drive forward_gear Nat.leb andb orb].
    assert (below (vx (limited p r)) 0 = false) as -> by (apply below_false; lra).
    split; [exact LV | exact C]. }
  assert (let w := run dt v (repeat c n) in
          model w = DelaySteerAccGeared /\ params w = p /\ long_queue w = [] /\ steer_queue w = [] /\
          vx (st w) = vx_lim p /\ accx (st w) = a) as I.
  { induction n as [| n IH]; [cbn; auto 10 |]. cbn zeta. rewrite repeat_snoc, run_snoc.
    cbn zeta in IH. set (w := run dt v (repeat c n)) in *. clearbody w. destruct IH as (M & P & Q1 & Q2 & X & Y).
    destruct (step_same dt w c) as [M' P']. destruct (K w M P Q1 Q2 X Y) as (E1 & E2 & E3 & E4).
    repeat (split; [congruence |]). exact E4. }
  destruct I as (M & P & Q1 & Q2 & X & Y). destruct (K _ M P Q1 Q2 X Y) as (_ & _ & E3 & E4).
  destruct (step_same dt (run dt v (repeat c n)) c) as [M' _]. rewrite M in M'.
  assert (forall w, model w = DelaySteerAccGeared -> get_vx w = vx (st w) /\ get_ax w = accx (st w)) as G
    by (intros w Mw; unfold get_vx, get_ax; now rewrite Mw).
  destruct (G _ M) as [G1 _]. destruct (G _ M') as [G2 G3].
  split; [exact (eq_trans G1 X) |]. split; [| exact (eq_trans G3 E4)].
  exact (eq_trans (eq_trans G2 E3) (eq_sym (eq_trans G1 X))).
Qed.

(** *** Examples *)
Definition sample : Parameters := parameters 50 7 1 5 3 1 1 (1 / 100) 0 1 1.
Lemma sample_sensible : sensible sample.
Proof. unfold sensible, sample. cbn. lra. Qed.

(** two commands wait, one angle *)
Definition waiting_car : Vehicle :=
  vehicle DelaySteerAccGeared sample (state 1 2 0 5 0 0 0) zero_input gear_drive [3; 4] [1 / 2] 0 0.
Example C146_example :
  let c k := (input (IZR k) 0 0 0, gear_drive) in
  shifted (long_queue waiting_car) (steer_queue waiting_car) [c 7; c 8; c 9]%Z
    [(input 3 (1 / 2) 0 0, gear_drive); (input 4 0 0 0, gear_drive); (input 7 0 0 0, gear_drive)] /\
  Forall2 same_but_delayed [c 8%Z] [c 9%Z] /\ delayed (model waiting_car) = true.
Proof.
  split; [| split; [repeat constructor | reflexivity]]. split; [reflexivity |].
  intros [| [| [| [| k]]]] c d C D; cbn in C, D; try discriminate;
    injection C as <-; injection D as <-; cbn; auto.
Qed.

Example C147_example : 0 <= vx_lim (params waiting_car) /\ Rabs (vx (st waiting_car)) <= vx_lim (params waiting_car) /\
  has_gears (model waiting_car) = true.
Proof. cbn. rewrite Rabs_right by lra. repeat split; lra. Qed.

(** a pedal acceleration of -3 holds against slopes up to 2 *)
Definition held_car : Vehicle :=
  vehicle DelaySteerAccGearedWoFallGuard sample (state 1 2 0 0 0 0 (-3)) zero_input gear_drive [-2] [0] 0 0.
Example C150_example : forall n,
  let r := st (run (1 / 10) held_car (repeat (input (-2) 0 gear_drive (-1), gear_drive) n)) in
  vx r = 0 /\ px r = 1 /\ py r = 2.
Proof.
  intros n. cbn zeta.
  assert (aimed_acceleration sample (-2) <= - 2) as A.
  { unfold aimed_acceleration, sample. cbn [vx_rate_lim acc_factor]. rewrite Rmin_left, Rmax_left by lra. lra. }
  destruct (C150_holds (1 / 10) held_car (repeat (input (-2) 0 gear_drive (-1), gear_drive) n) 2) as (B & C & D & _).
  - reflexivity.
  - exact sample_sensible.
  - cbn. lra.
  - cbn. lra.
  - reflexivity.
  - cbn. lra.
  - intros a [<- | []]. exact A.
  - intros c I. apply repeat_spec in I. subst c. split; [exact A |]. cbn. rewrite Rabs_left; lra.
  - auto.
Qed.

(** rolling: a pedal acceleration of -1 on a slope of 3 *)
Example C150_rolling :
  vx (st (step (1 / 10) (vehicle DelaySteerAccGearedWoFallGuard sample (state 1 2 0 0 0 0 (-1)) zero_input gear_drive [] [] 0 0)
            (input (-1) 0 gear_drive 3, gear_drive))) = 3 * (1 / 10).
Proof.
  apply C150_rolls; cbn [model params st vx pedal fst slope]; try reflexivity; try exact sample_sensible;
    unfold due_longitudinal, aimed_acceleration; cbn; try rewrite (Rabs_right 3) by lra; try lra.
  rewrite Rmin_left, Rmax_left by lra. lra.
Qed.

Print Assumptions C146_delay.
Print Assumptions C146_late.
Print Assumptions C146_size.
Print Assumptions C147_speed.
Print Assumptions C147_speed_commanded.
Print Assumptions C147_acceleration.
Print Assumptions C147_stop_refuted.
Print Assumptions C148_direction.
Print Assumptions C148_still.
Print Assumptions C148_stop.
Print Assumptions C148_park_refuted.
Print Assumptions C149_step.
Print Assumptions C149_limit.
Print Assumptions C149_factor_refuted.
Print Assumptions C150_holds.
Print Assumptions C150_rolls.
Print Assumptions C150_brakes.
Print Assumptions C151_change.
Print Assumptions C151_commanded.
Print Assumptions C151_limit_refuted.
