(** * C92-C96: time to collision, time headway, collision, clearance, relative speed and distance. *)
From Coq Require Import ZArith QArith Qabs List Bool Arith Lia Lqa.
From Verif Require Import M_Condition M_Entities M_EntityCondition S_Entities S_EntityCondition
  P_Entities T_Entities.
Import ListNotations.
Local Open Scope Q_scope.

(** ** C96 *)

Lemma lt_num_fin p q : lt_num (Fin p) (Fin q) = true <-> p < q.
Proof.
  cbn [lt_num]. rewrite negb_true_iff. split; intros H.
  - apply Qnot_le_lt. intros C. apply Qle_bool_iff in C. congruence.
  - destruct (Qle_bool q p) eqn:E; [|reflexivity]. apply Qle_bool_iff in E. lra.
Qed.

Ltac vecs := unfold component, relative_velocity, rotate, velocity, ahead, ahead_pos, left_of,
  aligned, opposed, upright, forward_speed, dot, sub, scale in *; cbn [vx vy vz] in *.

Lemma cosine_aligned c a b : upright c a -> aligned c b a -> dot (axis_x c a) (axis_x c b) == 1.
Proof. intros (U & _) (X & Y & Z). unfold dot in *. rewrite X, Y, Z. exact U. Qed.
Lemma cosine_opposed c a b : upright c a -> opposed c b a -> dot (axis_x c a) (axis_x c b) == -1.
Proof. intros (U & _) (X & Y & Z). unfold dot in *. rewrite X, Y, Z. lra. Qed.

(** The relative velocity in the frame of the reference: forward the projection of the velocity of
    the triggering entity minus the own speed, sideways and upwards only the projection. *)
Theorem C96_relative_speed : forall t added c r v reference n,
  added n = true -> added reference = true -> here c n = true -> here c reference = true ->
  upright c reference ->
  let value d := value_of t added c (RelativeSpeed r v reference (Some d)) n in
  is_value (value DLongitudinal)
    (dot (axis_x c reference) (axis_x c n) * forward_speed c n - forward_speed c reference) /\
  is_value (value DLateral) (dot (axis_y c reference) (axis_x c n) * forward_speed c n) /\
  is_value (value DVertical) (dot (axis_z c reference) (axis_x c n) * forward_speed c n).
Proof.
  intros t added c r v reference n A1 A2 H1 H2 U value. unfold value. cbn [value_of].
  unfold relative_speed_of, relative_velocity. rewrite A1, A2, H1, H2. cbn [andb].
  destruct U as (Uxx & _ & _ & Uxy & Uxz & _). unfold is_value.
  split; [|split]; (eexists; split; [reflexivity|]); vecs.
  - set (f := vx (twist c reference)) in *.
    assert (E : f == f * 1) by ring. rewrite E at 4. rewrite <- Uxx. ring.
  - set (f := vx (twist c reference)) in *. assert (E : f * 0 == 0) by ring.
    transitivity (vx (axis_y c reference) * (vx (twist c n) * vx (axis_x c n)) +
      vy (axis_y c reference) * (vx (twist c n) * vy (axis_x c n)) +
      vz (axis_y c reference) * (vx (twist c n) * vz (axis_x c n)) - f * 0); [|ring].
    rewrite <- Uxy. ring.
  - set (f := vx (twist c reference)) in *.
    transitivity (vx (axis_z c reference) * (vx (twist c n) * vx (axis_x c n)) +
      vy (axis_z c reference) * (vx (twist c n) * vy (axis_x c n)) +
      vz (axis_z c reference) * (vx (twist c n) * vz (axis_x c n)) - f * 0); [|ring].
    rewrite <- Uxz. ring.
Qed.

Lemma is_value_compat r p q : is_value r p -> p == q -> is_value r q.
Proof. intros (v & E & H) H'. exists v. split; [exact E|]. lra. Qed.

(** Entities looking the same way: the difference of their speeds, so that exchanging them changes
    the sign; looking at each other, minus the sum. *)
Theorem C96_relative_speed_aligned : forall t added c r v a b,
  added a = true -> added b = true -> here c a = true -> here c b = true ->
  upright c a -> upright c b ->
  let value reference n := value_of t added c (RelativeSpeed r v reference (Some DLongitudinal)) n in
  (aligned c a b -> is_value (value b a) (forward_speed c a - forward_speed c b) /\
                    is_value (value a b) (forward_speed c b - forward_speed c a)) /\
  (opposed c a b -> is_value (value b a) (- forward_speed c a - forward_speed c b) /\
                    is_value (value a b) (- forward_speed c a - forward_speed c b)).
Proof.
  intros t added c r v a b A1 A2 H1 H2 U1 U2 value. unfold value.
  destruct (C96_relative_speed t added c r v b a A1 A2 H1 H2 U2) as (X & _).
  destruct (C96_relative_speed t added c r v a b A2 A1 H2 H1 U1) as (Y & _).
  split; intros AL; split.
  - eapply is_value_compat; [exact X|]. rewrite (cosine_aligned c b a U2 AL). ring.
  - eapply is_value_compat; [exact Y|]. rewrite (cosine_aligned c a b U1). ring.
    destruct AL as (?&?&?); repeat split; symmetry; assumption.
  - eapply is_value_compat; [exact X|]. rewrite (cosine_opposed c b a U2 AL). ring.
  - eapply is_value_compat; [exact Y|]. rewrite (cosine_opposed c a b U1). ring.
    destruct AL as (E1&E2&E3); repeat split; [rewrite E1|rewrite E2|rewrite E3]; ring.
Qed.

(** Without a direction the value is the length of the relative velocity, never negative. *)
Theorem C96_relative_speed_length : forall t added c r v reference n,
  (forall w, 0 <= length c w) ->
  added n = true -> added reference = true -> here c n = true -> here c reference = true ->
  exists q w, value_of t added c (RelativeSpeed r v reference None) n = Ok (Fin q) /\
    relative_velocity c reference n = Some w /\ q = length c w /\ 0 <= q.
Proof.
  intros t added c r v reference n L A1 A2 H1 H2. cbn [value_of]. unfold relative_speed_of.
  rewrite A1, A2. cbn [andb]. unfold relative_velocity. rewrite H1, H2. cbn [andb].
  do 2 eexists. split; [reflexivity|]. split; [reflexivity|]. split; [reflexivity|]. apply L.
Qed.

(** The conditions on one entity: the component of its velocity, by default the forward one or, in
    standard mode, the speed as a length; its acceleration; how long it stands; how far it is from a
    position. *)
Theorem C96_own_values : forall t added c n,
  added n = true -> here c n = true ->
  (forall standard r v d,
     value_of t added c (Speed standard r v d) n =
     Ok (Fin (match d with
              | Some DLongitudinal => vx (twist c n)
              | Some DLateral => vy (twist c n)
              | Some DVertical => vz (twist c n)
              | None => if standard then length c (twist c n) else vx (twist c n)
              end))) /\
  (forall r v, value_of t added c (Acceleration r v) n = Ok (Fin (accel c n))) /\
  (forall v, satisfies t added c (StandStill (Fin v)) n <-> v < still c n) /\
  (forall v p, satisfies t added c (ReachPosition (Fin v) p) n <->
     length c (V (ahead_pos c n (p_place p)) (dot (axis_y c n) (sub (p_place p) (place c n)))
                 (dot (axis_z c n) (sub (p_place p) (place c n)))) < v).
Proof.
  intros t added c n A H. split; [|split; [|split]].
  - intros standard r v d. cbn [value_of]. unfold speed_of, speed_vector, get. rewrite A, H.
    cbn [bind]. destruct d as [[]|]; reflexivity.
  - intros r v. cbn [value_of]. unfold acceleration_of, get. now rewrite H.
  - intros v. unfold satisfies. cbn [value_of rule_of threshold_of apply_rule].
    unfold still_of, get. rewrite H. split.
    + intros (x & E & L). inversion E; subst. now apply lt_num_fin in L.
    + intros L. eexists. split; [reflexivity|]. now apply lt_num_fin.
  - intros v p. unfold satisfies. cbn [value_of rule_of threshold_of apply_rule].
    unfold reach_of, world_pos. rewrite H. cbn [option_map of_option]. split.
    + intros (x & E & L). inversion E; subst. now apply lt_num_fin in L.
    + intros L. eexists. split; [reflexivity|]. now apply lt_num_fin.
Qed.

(** Distances between bounding boxes, in the entity frame. *)
Theorem C96_freespace : forall t added c r v n m ty p,
  added n = true -> added m = true -> here c n = true -> here c m = true ->
  (forall w, boxes c n m = Some w ->
     let value d := value_of t added c (RelativeDistance r v EntityFrame d Undefined true (Obj m ty)) n in
     value Longitudinal = Ok (Fin (Qabs (vx w))) /\ value Lateral = Ok (Fin (Qabs (vy w))) /\
     value Euclidean = Ok (Fin (length c w))) /\
  (forall w, p_box p n = Some w ->
     let value d := value_of t added c (Distance r v EntityFrame d Undefined true p) n in
     value Longitudinal = Ok (Fin (vx w)) /\ value Lateral = Ok (Fin (vy w)) /\
     value Euclidean = Ok (Fin (length c w))).
Proof.
  intros t added c r v n m ty p A1 A2 H1 H2. cbn [value_of]. split; intros w E.
  - unfold relative_distance_of, is_added. cbn [objects forallb as_ref bind]. rewrite A1, A2.
    cbn [andb]. unfold relative_distance, box. rewrite H1, H2, E. repeat split.
  - unfold distance_of. rewrite A1. unfold distance, box_pos. rewrite H1, E. repeat split.
Qed.

(** Distances to an entity in the entity frame are never negative; ... *)
Theorem C96_relative_distance : forall t added c r v n m ty,
  added n = true -> added m = true -> here c n = true -> here c m = true ->
  let value d := value_of t added c (RelativeDistance r v EntityFrame d Undefined false (Obj m ty)) n in
  is_value (value Longitudinal) (Qabs (ahead c n m)) /\
  is_value (value Lateral) (Qabs (left_of c n m)) /\
  is_value (value Euclidean) (length c (V (ahead c n m) (left_of c n m)
                                (dot (axis_z c n) (sub (place c m) (place c n))))).
Proof.
  intros t added c r v n m ty A1 A2 H1 H2 value. unfold value. cbn [value_of].
  unfold relative_distance_of, is_added. cbn [objects forallb as_ref bind]. rewrite A1, A2.
  cbn [andb]. unfold relative_distance, world. rewrite H1, H2. cbn [andb option_map of_option abs_option].
  unfold is_value. split; [|split]; eexists; (split; [reflexivity|]); reflexivity.
Qed.

(** ... they do not depend on who looks, if both look the same way ... *)
Theorem C96_relative_distance_symmetric : forall t added c r v n m tn tm,
  added n = true -> added m = true -> here c n = true -> here c m = true -> aligned c n m ->
  exists q,
    is_value (value_of t added c
      (RelativeDistance r v EntityFrame Longitudinal Undefined false (Obj m tm)) n) q /\
    is_value (value_of t added c
      (RelativeDistance r v EntityFrame Longitudinal Undefined false (Obj n tn)) m) q.
Proof.
  intros t added c r v n m tn tm A1 A2 H1 H2 AL.
  exists (Qabs (ahead c n m)). split.
  - now apply (C96_relative_distance t added c r v n m tm).
  - eapply is_value_compat; [now apply (C96_relative_distance t added c r v m n tn)|].
    rewrite <- Qabs_opp. apply Qabs_wd. destruct AL as (E1 & E2 & E3).
    unfold ahead, dot, sub. cbn [vx vy vz]. rewrite E1, E2, E3. ring.
Qed.

(** ... but distances to a position keep their sign: a position behind is at a negative distance
    (the reading of the other condition is refuted). *)
Theorem C96_distance_sign_refuted : forall t added c r v n p,
  added n = true -> here c n = true ->
  let value d := value_of t added c (Distance r v EntityFrame d Undefined false p) n in
  is_value (value Longitudinal) (ahead_pos c n (p_place p)) /\
  (ahead_pos c n (p_place p) < 0 ->
   exists q, value Longitudinal = Ok (Fin q) /\ q < 0 /\
     forall bound, 0 <= bound ->
       satisfies t added c (Distance LessThan (Fin bound) EntityFrame Longitudinal Undefined false p) n).
Proof.
  intros t added c r v n p A H value. unfold value. cbn [value_of]. unfold distance_of, distance, world_pos.
  rewrite A, H. cbn [option_map of_option].
  split; [eexists; split; [reflexivity|reflexivity]|]. intros N.
  exists (ahead_pos c n (p_place p)). split; [reflexivity|]. split; [exact N|]. intros bound B.
  exists (Fin (ahead_pos c n (p_place p))). split.
  - cbn [value_of]. unfold distance_of, distance, world_pos. rewrite A, H. reflexivity.
  - cbn [apply_rule rule_of threshold_of lt_num]. apply negb_true_iff.
    destruct (Qle_bool bound (ahead_pos c n (p_place p))) eqn:E; [|reflexivity].
    apply Qle_bool_iff in E. lra.
Qed.

(** Lane distances: signed without a routing algorithm, absolute for the shortest route. *)
Theorem C96_lane_distance : forall t added c r v free n m ty,
  added n = true -> added m = true -> here c n = true -> here c m = true ->
  let value d ra := value_of t added c (RelativeDistance r v Lane d ra free (Obj m ty)) n in
  (forall l, lanes c free Undefined n m = Some l ->
     value Longitudinal Undefined = Ok (Fin (l_s l)) /\ value Lateral Undefined = Ok (Fin (l_offset l))) /\
  (forall l, lanes c free Shortest n m = Some l ->
     value Longitudinal Shortest = Ok (Fin (Qabs (l_s l))) /\
     value Lateral Shortest = Ok (Fin (Qabs (l_offset l)))) /\
  (forall ra, lanes c free ra n m = None -> ra = Undefined \/ ra = Shortest ->
     value Longitudinal ra = Ok NaN /\ value Lateral ra = Ok NaN).
Proof.
  intros t added c r v free n m ty A1 A2 H1 H2 value. unfold value. cbn [value_of].
  unfold relative_distance_of, is_added. cbn [objects forallb as_ref bind]. rewrite A1, A2.
  cbn [andb]. unfold relative_distance, lane. rewrite H1, H2. cbn [andb].
  split; [|split].
  - intros l ->. split; reflexivity.
  - intros l ->. split; reflexivity.
  - intros ra E [->| ->]; rewrite E; split; reflexivity.
Qed.

(** Every other combination is an error, though only once both entities were added. *)
Theorem C96_unsupported : forall t added c r v k d ra free n m ty p,
  added n = true -> added m = true ->
  (fails t added c (RelativeDistance r v k d ra free (Obj m ty)) n <-> ~ supported k d ra) /\
  ((forall fr rr x, p_lane p fr rr x <> Throw) ->
   (fails t added c (Distance r v k d ra free p) n <-> ~ supported k d ra)).
Proof.
  intros t added c r v k d ra free n m ty p A1 A2. unfold fails. cbn [value_of].
  unfold relative_distance_of, is_added, distance_of. cbn [objects forallb as_ref bind].
  rewrite A1, A2. cbn [andb].
  split.
  - unfold supported in *.
    destruct k, d, ra; cbn [relative_distance]; split; intros H; try discriminate; try reflexivity;
      try (exfalso; apply H; first [left; split; reflexivity | right; split; [reflexivity|split; auto]]); intros H'; intuition discriminate.
  - intros P. specialize (P free ra n). unfold supported in *.
    destruct k, d, ra; cbn [distance]; unfold lane_pos;
      try (destruct (p_lane p free _ n); [|contradiction]); cbn [bind];
      split; intros H; try discriminate; try reflexivity;
      try (exfalso; apply H; first [left; split; reflexivity | right; split; [reflexivity|split; auto]]); intros H'; intuition discriminate.
Qed.

Example C96_example :
  is_value (value_of demo_table (fun _ => true) demo_core
              (RelativeSpeed LessThan (Fin 0) 0%nat (Some DLongitudinal)) 1%nat) 15 /\
  upright demo_core 0%nat /\ aligned demo_core 0%nat 1%nat /\
  is_value (value_of demo_table (fun _ => true) demo_core
              (RelativeDistance LessThan (Fin 0) EntityFrame Longitudinal Undefined false (Obj 0%nat Vehicle)) 2%nat) 20.
Proof.
  split; [|split; [|split]].
  - eexists. split; [reflexivity|]. vm_compute. reflexivity.
  - repeat split; vm_compute; reflexivity.
  - repeat split; vm_compute; reflexivity.
  - eexists. split; [reflexivity|]. vm_compute. reflexivity.
Qed.

(** ** C92 *)

Lemma max_zero_pos q : 0 < q -> max_zero (Fin q) = Fin q.
Proof.
  intros H. unfold max_zero. destruct (lt_num (Fin q) (Fin 0)) eqn:E; [|reflexivity].
  apply lt_num_fin in E. lra.
Qed.
Lemma max_zero_nonpos q : q <= 0 -> exists z, max_zero (Fin q) = Fin z /\ z == 0.
Proof.
  intros H. unfold max_zero. destruct (lt_num (Fin q) (Fin 0)) eqn:E.
  - exists 0. split; reflexivity.
  - exists q. split; [reflexivity|]. apply Qle_antisym; [exact H|].
    apply Qnot_lt_le. intros C. apply lt_num_fin in C. congruence.
Qed.

Lemma div_fin x y : ~ y == 0 -> div_num (Fin x) (Fin y) = Fin (x / y).
Proof. intros H. cbn. destruct (Qeq_bool y 0) eqn:E; [apply Qeq_bool_iff in E; contradiction|reflexivity]. Qed.
Lemma div_zero x y : y == 0 -> 0 < x -> div_num (Fin x) (Fin y) = PInf.
Proof.
  intros H X. cbn. apply Qeq_bool_iff in H. rewrite H.
  destruct (Qeq_bool x 0) eqn:E; [apply Qeq_bool_iff in E; lra|].
  destruct (Qle_bool 0 x) eqn:E'; [reflexivity|].
  assert (C : 0 <= x) by lra. apply Qle_bool_iff in C. congruence.
Qed.
Lemma div_zero_neg x y : y == 0 -> x < 0 -> div_num (Fin x) (Fin y) = NInf.
Proof.
  intros H X. cbn. apply Qeq_bool_iff in H. rewrite H.
  destruct (Qeq_bool x 0) eqn:E; [apply Qeq_bool_iff in E; lra|].
  destruct (Qle_bool 0 x) eqn:E'; [|reflexivity]. apply Qle_bool_iff in E'. lra.
Qed.
Lemma div_zero_zero x y : y == 0 -> x == 0 -> div_num (Fin x) (Fin y) = NaN.
Proof. intros H X. cbn. apply Qeq_bool_iff in H. apply Qeq_bool_iff in X. now rewrite H, X. Qed.

Section Collision_time.
  Context (t : table) (added : name -> bool) (c : core) (r : rule) (v : num) (n m : name)
    (ty : object_type).
  Context (A1 : added n = true) (A2 : added m = true) (H1 : here c n = true) (H2 : here c m = true)
    (U : upright c m) (AL : aligned c n m).
  Let value := value_of t added c
    (TimeToCollision r v EntityFrame Longitudinal Undefined false (ToEntity (Obj m ty))) n.

  Lemma ttc_shape : exists x s,
    x == Qabs (ahead c n m) /\ s == forward_speed c n - forward_speed c m /\
    value = Ok (div_num (Fin x) (max_zero (Fin s))).
  Proof.
    destruct (C96_relative_distance t added c r v n m ty A1 A2 H1 H2) as ((x & Ex & X) & _).
    assert (Um : upright c m) by exact U.
    destruct (C96_relative_speed t added c r v m n A1 A2 H1 H2 Um) as ((s & Es & S) & _).
    exists x, s. split; [exact X|]. split.
    - rewrite S, (cosine_aligned c m n Um AL). ring.
    - unfold value. cbn [value_of time_to_collision dimension_of] in *. rewrite Ex. cbn [bind].
      unfold relative_speed_to, is_added. cbn [objects forallb name_of].
      unfold relative_speed_of in Es. rewrite A1, A2 in *. cbn [andb] in *.
      inversion Es as [E']. destruct (relative_velocity c m n); inversion E'. reflexivity.
  Qed.

  Lemma closing : forward_speed c m < forward_speed c n -> exists q,
    value = Ok (Fin q) /\
    q == Qabs (ahead c n m) / (forward_speed c n - forward_speed c m).
  Proof.
    intros C. destruct ttc_shape as (x & s & X & S & ->).
    rewrite max_zero_pos by lra. rewrite div_fin by lra.
    eexists. split; [reflexivity|]. now rewrite X, S.
  Qed.
  Lemma receding : forward_speed c n <= forward_speed c m -> ~ ahead c n m == 0 -> value = Ok PInf.
  Proof.
    intros C N. destruct ttc_shape as (x & s & X & S & ->).
    destruct (max_zero_nonpos s) as (z & -> & Z); [lra|]. rewrite div_zero; [reflexivity|exact Z|].
    rewrite X. assert (0 <= Qabs (ahead c n m)) by apply Qabs_nonneg.
    destruct (Qlt_le_dec 0 (Qabs (ahead c n m))) as [K|K]; [exact K|].
    exfalso. apply N. apply Qabs_Qle_condition in K. lra.
  Qed.
  Lemma level : forward_speed c n <= forward_speed c m -> ahead c n m == 0 -> value = Ok NaN.
  Proof.
    intros C N. destruct ttc_shape as (x & s & X & S & ->).
    destruct (max_zero_nonpos s) as (z & -> & Z); [lra|]. rewrite div_zero_zero; [reflexivity|exact Z|].
    rewrite X, N. reflexivity.
  Qed.
End Collision_time.

(** A triggering entity behind one that looks the same way: the value is the one time at which
    they would be level, and infinite if they never are. *)
Theorem C92_behind : forall t added c r v n m ty,
  added n = true -> added m = true -> here c n = true -> here c m = true ->
  upright c m -> aligned c n m -> 0 < ahead c n m ->
  let value := value_of t added c
    (TimeToCollision r v EntityFrame Longitudinal Undefined false (ToEntity (Obj m ty))) n in
  (exists q, value = Ok (Fin q) /\ 0 < q /\ meet c n m q /\
     forall q', meet c n m q' -> q' == q) \/
  (value = Ok PInf /\ forall q, 0 <= q -> ~ meet c n m q).
Proof.
  intros t added c r v n m ty A1 A2 H1 H2 U AL P value. unfold value.
  destruct (Qlt_le_dec (forward_speed c m) (forward_speed c n)) as [C|C].
  - left. destruct (closing t added c r v n m ty A1 A2 H1 H2 U AL C) as (q & E & Q).
    exists q. split; [exact E|]. rewrite Qabs_pos in Q by lra.
    assert (D : (forward_speed c n - forward_speed c m) * q == ahead c n m).
    { rewrite Q. field. lra. }
    unfold meet. split; [|split].
    + rewrite Q. unfold Qdiv. apply Qmult_lt_0_compat; [exact P|]. apply Qinv_lt_0_compat. lra.
    + rewrite <- D. ring.
    + intros q' M. apply (Qmult_inj_l _ _ (forward_speed c n - forward_speed c m)); [lra|].
      rewrite D. lra.
  - right. split; [apply receding; auto; lra|]. intros q Q M. unfold meet in M. nra.
Qed.

(** Ahead of the other entity this is refuted: moving away gives a finite time although the two
    never are level, and being caught up with gives infinity. *)
Theorem C92_ahead_refuted : forall t added c r v n m ty,
  added n = true -> added m = true -> here c n = true -> here c m = true ->
  upright c m -> aligned c n m -> ahead c n m < 0 ->
  let value := value_of t added c
    (TimeToCollision r v EntityFrame Longitudinal Undefined false (ToEntity (Obj m ty))) n in
  (forward_speed c m < forward_speed c n ->
     (exists q, value = Ok (Fin q) /\ 0 < q) /\ forall q, 0 <= q -> ~ meet c n m q) /\
  (forward_speed c n < forward_speed c m ->
     value = Ok PInf /\ exists q, 0 < q /\ meet c n m q).
Proof.
  intros t added c r v n m ty A1 A2 H1 H2 U AL P value. unfold value. split; intros C; split.
  - destruct (closing t added c r v n m ty A1 A2 H1 H2 U AL C) as (q & E & Q). exists q.
    split; [exact E|]. rewrite Q. unfold Qdiv. apply Qmult_lt_0_compat; [|apply Qinv_lt_0_compat; lra].
    rewrite Qabs_neg by lra. lra.
  - intros q Q M. unfold meet in M. nra.
  - apply receding; auto; lra.
  - exists (- ahead c n m / (forward_speed c m - forward_speed c n)). split.
    + unfold Qdiv. apply Qmult_lt_0_compat; [lra|]. apply Qinv_lt_0_compat. lra.
    + unfold meet. field. lra.
Qed.

(** Entities that move away from each other satisfy greaterThan, where the standard says that the
    condition is false. *)
Theorem C92_receding_refuted : forall t added c n m ty bound,
  added n = true -> added m = true -> here c n = true -> here c m = true ->
  upright c m -> aligned c n m -> 0 < ahead c n m -> forward_speed c n < forward_speed c m ->
  satisfies t added c (TimeToCollision GreaterThan (Fin bound) EntityFrame Longitudinal Undefined
                         false (ToEntity (Obj m ty))) n.
Proof.
  intros. exists PInf. split; [|reflexivity]. apply receding; auto; lra.
Qed.

(** A position as target: ahead, the time to reach it, infinite if the entity stands or goes
    backwards; behind, a negative time or minus infinity, so that lessThan is satisfied although the
    position is never reached (refuted). *)
Theorem C92_position : forall t added c r v n p,
  added n = true -> here c n = true ->
  let value := value_of t added c
    (TimeToCollision r v EntityFrame Longitudinal Undefined false (ToPosition p)) n in
  let x := ahead_pos c n (p_place p) in
  (0 < x -> (0 < forward_speed c n -> is_value value (x / forward_speed c n)) /\
            (forward_speed c n <= 0 -> value = Ok PInf)) /\
  (x < 0 -> (0 < forward_speed c n -> exists q, value = Ok (Fin q) /\ q < 0) /\
            (forward_speed c n <= 0 -> value = Ok NInf)).
Proof.
  intros t added c r v n p A H value x. unfold value. cbn [value_of time_to_collision dimension_of].
  unfold distance_of, distance, world_pos, speed_of, speed_vector, get. rewrite A, H.
  cbn [bind of_option option_map component vx rotate].
  change (dot (axis_x c n) (sub (p_place p) (place c n))) with x.
  change (vx (twist c n)) with (forward_speed c n).
  split; intros X; split; intros S.
  - rewrite max_zero_pos by lra. rewrite div_fin by lra. eexists. split; reflexivity.
  - destruct (max_zero_nonpos _ S) as (z & -> & Z). now rewrite div_zero.
  - rewrite max_zero_pos by lra. rewrite div_fin by lra. eexists. split; [reflexivity|].
    unfold Qdiv. assert (0 < / forward_speed c n) by (apply Qinv_lt_0_compat; lra). nra.
  - destruct (max_zero_nonpos _ S) as (z & -> & Z). now rewrite div_zero_neg.
Qed.

(** In general the value is the distance divided by the relative speed, each as the conditions of
    the same name measure it, as long as that speed is positive. *)
Theorem C92_quotient : forall t added c r v k d ra free n m ty x s,
  value_of t added c (RelativeDistance r v k d ra free (Obj m ty)) n = Ok (Fin x) ->
  value_of t added c (RelativeSpeed r v m
    (match d with Longitudinal => Some DLongitudinal | Lateral => Some DLateral | Euclidean => None end)) n
  = Ok (Fin s) ->
  let value := value_of t added c (TimeToCollision r v k d ra free (ToEntity (Obj m ty))) n in
  (0 < s -> value = Ok (Fin (x / s))) /\
  (s <= 0 -> 0 < x -> value = Ok PInf) /\
  (s <= 0 -> x < 0 -> value = Ok NInf).
Proof.
  intros t added c r v k d ra free n m ty x s X S value. unfold value.
  cbn [value_of time_to_collision] in *. rewrite X. cbn [bind].
  assert (E : relative_speed_to t added c (Obj m ty) (dimension_of d) n = Fin s).
  { unfold relative_speed_to, is_added. cbn [objects forallb name_of]. rewrite andb_true_r.
    unfold relative_speed_of in S. inversion S as [S']. rewrite S'. destruct (added n && added m); [|exact S'].
    destruct d; exact S'. }
  rewrite E. split; [|split].
  - intros P. rewrite max_zero_pos by exact P. now rewrite div_fin by lra.
  - intros P Q. destruct (max_zero_nonpos s P) as (z & -> & Z). now rewrite div_zero.
  - intros P Q. destruct (max_zero_nonpos s P) as (z & -> & Z). now rewrite div_zero_neg.
Qed.

(** The same for a position: the distance to it divided by the speed, each as the conditions of the
    same name measure it under the standard (Euclidean: the magnitude of the velocity). *)
Theorem C92_position_quotient : forall t added c r v k d ra free n p x s,
  value_of t added c (Distance r v k d ra free p) n = Ok (Fin x) ->
  value_of t added c (Speed true r v
    (match d with Longitudinal => Some DLongitudinal | Lateral => Some DLateral | Euclidean => None end)) n
  = Ok (Fin s) ->
  let value := value_of t added c (TimeToCollision r v k d ra free (ToPosition p)) n in
  (0 < s -> value = Ok (Fin (x / s))) /\
  (s <= 0 -> 0 < x -> value = Ok PInf) /\
  (s <= 0 -> x < 0 -> value = Ok NInf).
Proof.
  intros t added c r v k d ra free n p x s X S value. unfold value.
  cbn [value_of time_to_collision] in *. rewrite X. cbn [bind].
  replace (speed_of true added c (dimension_of d) n) with (Ok (Fin s)) by (rewrite <- S; now destruct d).
  cbn [bind]. split; [|split].
  - intros P. rewrite max_zero_pos by exact P. now rewrite div_fin by lra.
  - intros P Q. destruct (max_zero_nonpos s P) as (z & -> & Z). now rewrite div_zero.
  - intros P Q. destruct (max_zero_nonpos s P) as (z & -> & Z). now rewrite div_zero_neg.
Qed.

(** A target or a triggering entity that was not added makes the value not a number; a combination
    without distance is an error only when both were added. *)
Theorem C92_unsupported : forall t added c r v k d ra free n m ty,
  (added n = false \/ added m = false ->
     value_of t added c (TimeToCollision r v k d ra free (ToEntity (Obj m ty))) n = Ok NaN) /\
  (added n = true -> added m = true ->
     (fails t added c (TimeToCollision r v k d ra free (ToEntity (Obj m ty))) n <->
      ~ supported k d ra)).
Proof.
  intros t added c r v k d ra free n m ty. split.
  - intros H. cbn [value_of time_to_collision]. unfold relative_distance_of, is_added.
    cbn [objects forallb]. rewrite andb_true_r.
    replace (added n && added m) with false by (destruct H as [-> | ->]; [reflexivity|now rewrite andb_false_r]).
    reflexivity.
  - intros A1 A2.
    rewrite <- (proj1 (C96_unsupported t added c r v k d ra free n m ty
              {| p_place := V 0 0 0; p_box := fun _ => None; p_lane := fun _ _ _ => Throw |} A1 A2)).
    unfold fails. cbn [value_of time_to_collision].
    destruct (relative_distance_of t added c k d ra free (Obj m ty) n); cbn [bind]; split; congruence.
Qed.

Example C92_example :
  is_value (value_of demo_table (fun _ => true) demo_core
    (TimeToCollision LessThan (Fin 3) EntityFrame Longitudinal Undefined false
       (ToEntity (Obj 0%nat Vehicle))) 1%nat) (2 # 3) /\
  ahead demo_core 1%nat 0%nat < 0 /\
  value_of demo_table (fun _ => true) demo_core
    (TimeToCollision LessThan (Fin 3) EntityFrame Longitudinal Undefined false
       (ToEntity (Obj 1%nat Vehicle))) 0%nat = Ok PInf /\ 0 < ahead demo_core 0%nat 1%nat.
Proof.
  split; [|split; [|split]].
  - eexists. split; [reflexivity|]. vm_compute. reflexivity.
  - vm_compute. reflexivity.
  - vm_compute. reflexivity.
  - vm_compute. reflexivity.
Qed.

(** ** C93 *)

(** The time the triggering entity needs, at its speed, for the way to the reference, measured along
    the reference: infinite if it stands, negative if it goes backwards, no number if it is in front
    of the reference or one of the two is absent. *)
Theorem C93_headway : forall t added c r v n m ty,
  let value := value_of t added c (TimeHeadway r v (Obj m ty)) n in
  let behind := - ahead c m n in
  (here c n = true -> here c m = true ->
     (0 <= behind -> 0 < forward_speed c n ->
        exists q, value = Ok (Fin q) /\ 0 <= q /\ forward_speed c n * q == behind) /\
     (0 <= behind -> forward_speed c n == 0 -> value = Ok PInf) /\
     (0 < behind -> forward_speed c n < 0 -> exists q, value = Ok (Fin q) /\ q < 0) /\
     (behind < 0 -> value = Ok NaN)) /\
  (here c n = false \/ here c m = false -> value = Ok NaN).
Proof.
  intros t added c r v n m ty value behind. unfold value, behind. cbn [value_of]. unfold headway_of.
  cbn [as_ref bind]. unfold time_headway, world. split.
  - intros H1 H2. rewrite H1, H2. cbn [andb rotate vx].
    change (dot (axis_x c m) (sub (place c n) (place c m))) with (ahead c m n).
    change (vx (twist c n)) with (forward_speed c n).
    assert (LE : forall P : Prop, (ahead c m n <= 0 -> P) -> 0 <= - ahead c m n -> P)
      by (intros P K B; apply K; lra).
    split; [|split; [|split]].
    + intros B S. assert (L : ahead c m n <= 0) by lra. apply Qle_bool_iff in L. rewrite L.
      rewrite div_fin by lra. cbn [is_nan]. eexists. split; [reflexivity|]. split.
      * unfold Qdiv. assert (0 < / forward_speed c n) by (apply Qinv_lt_0_compat; lra). nra.
      * field. lra.
    + intros B S. assert (L : ahead c m n <= 0) by lra. apply Qle_bool_iff in L. rewrite L.
      destruct (Qlt_le_dec 0 (- ahead c m n)).
      * rewrite div_zero; [reflexivity|exact S|lra].
      * rewrite div_zero_zero; [reflexivity|exact S|lra].
    + intros B S. assert (L : ahead c m n <= 0) by lra. apply Qle_bool_iff in L. rewrite L.
      rewrite div_fin by lra. cbn [is_nan]. eexists. split; [reflexivity|].
      setoid_replace (ahead c m n * -1 / forward_speed c n)
        with (ahead c m n * (/ (- forward_speed c n))) by (field; lra).
      assert (0 < / (- forward_speed c n)) by (apply Qinv_lt_0_compat; lra). nra.
    + intros B. destruct (Qle_bool (ahead c m n) 0) eqn:E; [|reflexivity].
      apply Qle_bool_iff in E. lra.
  - intros [-> | ->]; [rewrite andb_false_r|]; reflexivity.
Qed.

(** So an entity in front of the reference satisfies only notEqualTo, and one that drives backwards
    satisfies lessThan with every bound that is not negative although its headway grows (refuted). *)
Theorem C93_backwards_refuted : forall t added c n m ty bound,
  here c n = true -> here c m = true -> 0 < - ahead c m n -> forward_speed c n < 0 -> 0 <= bound ->
  satisfies t added c (TimeHeadway LessThan (Fin bound) (Obj m ty)) n.
Proof.
  intros t added c n m ty bound H1 H2 B S K.
  destruct (proj1 (C93_headway t added c LessThan (Fin bound) n m ty) H1 H2) as (_ & _ & X & _).
  destruct (X B S) as (q & E & Q). exists (Fin q). split; [exact E|].
  cbn [rule_of threshold_of apply_rule]. apply lt_num_fin. lra.
Qed.

(** A selection as reference is an error. *)
Theorem C93_selection : forall t added c r v n k os tys,
  fails t added c (TimeHeadway r v (Sel k os tys)) n.
Proof. reflexivity. Qed.

Example C93_example :
  is_value (value_of demo_table (fun _ => true) demo_core
    (TimeHeadway LessThan (Fin 3) (Obj 2%nat Pedestrian)) 0%nat) 4 /\
  value_of demo_table (fun _ => true) demo_core (TimeHeadway LessThan (Fin 3) (Obj 0%nat Vehicle)) 2%nat
  = Ok NaN.
Proof. split; [|reflexivity]. eexists. split; [reflexivity|]. vm_compute. reflexivity. Qed.

(** ** C94 *)

Lemma find_object ds t n ty : build ds = Ok t -> first_object ds n = Some ty -> find t n = Some (Obj n ty).
Proof.
  intros Hb F. apply build_inv in Hb. destruct Hb as [D I]. destruct (I n) as [A B].
  destruct (find t n) as [o|]; [|destruct (B eq_refl); congruence].
  specialize (A o eq_refl). unfold denotes in A. rewrite F in A. now subst.
Qed.

Lemma check_collision_spec c a b :
  check_collision c a b = true <-> a <> b /\ here c a = true /\ here c b = true /\ overlap c a b = true.
Proof.
  unfold check_collision. rewrite !andb_true_iff, negb_true_iff, Nat.eqb_neq. tauto.
Qed.

(** Two entities collide: both are there, they are different, and their bounding boxes overlap. *)
Definition collide (c : core) (a b : name) : Prop :=
  a <> b /\ here c a = true /\ here c b = true /\ overlap c a b = true.

Lemma bool_all ds t ns es (check : name -> bool) (P : name -> Prop) :
  build ds = Ok t -> triggering t ns = Ok es ->
  (forall n, check n = true <-> P n) ->
  (bool_condition t All (fun n => Ok (check n)) es = Ok true <->
   forall n, In n ns -> forall m, member ds n m -> P m).
Proof.
  intros Hb Ht C. rewrite bool_condition_each. cbn [te_res]. rewrite all_res_true.
  rewrite <- (named_all ds t ns es Hb (proj2 (triggering_ok t ns es Ht)) P).
  split; intros H o Ho; specialize (H o Ho).
  - intros m Hm. apply C. rewrite each_true in H. specialize (H m Hm). congruence.
  - apply each_true. intros m Hm. f_equal. now apply C, H.
Qed.

Lemma bool_total t (check : name -> bool) es te :
  exists b, bool_condition t te (fun n => Ok (check n)) es = Ok b.
Proof.
  rewrite bool_condition_each.
  assert (N : forall o, exists b, each t (fun n => Ok (check n)) o = Ok b).
  { intros o. destruct (each t (fun n => Ok (check n)) o) as [b|] eqn:E; [eauto|].
    apply each_throw in E. destruct E as (m & _ & E). discriminate. }
  assert (X : exists b, any_res (each t (fun n => Ok (check n))) es = Ok b).
  { induction es as [|o l IH]; cbn [any_res]; [eauto|]. destruct (N o) as ([] & ->); cbn [bind]; eauto. }
  destruct te; cbn [te_res].
  - induction es as [|o l IH]; cbn [all_res]; [eauto|]. destruct (N o) as ([] & ->); cbn [bind]; eauto.
    apply IH. destruct X as (b & X). cbn [any_res] in X.
    clear -N. induction l as [|o l IH]; cbn [any_res]; [eauto|]. destruct (N o) as ([] & ->); cbn [bind]; eauto.
  - exact X.
  - destruct X as (b & ->). cbn [bind]. eauto.
Qed.

Lemma bool_any ds t ns es (check : name -> bool) (P : name -> Prop) :
  build ds = Ok t -> triggering t ns = Ok es ->
  (forall n, check n = true <-> P n) ->
  (bool_condition t Any (fun n => Ok (check n)) es = Ok true <->
   exists n, In n ns /\ forall m, member ds n m -> P m).
Proof.
  intros Hb Ht C. rewrite bool_condition_each. cbn [te_res].
  assert (F := proj2 (triggering_ok t ns es Ht)). clear Ht.
  assert (E : forall n o, find t n = Some o ->
     (each t (fun n => Ok (check n)) o = Ok true <-> forall m, member ds n m -> P m)).
  { intros n o Hf. rewrite each_true. split; intros A m Hm.
    - apply C. assert (Ok (check m) = Ok true) as X
        by (apply A; now apply (objects_member ds t Hb o n Hf)). congruence.
    - f_equal. apply C, A. now apply (objects_member ds t Hb o n Hf). }
  assert (N : forall o, each t (fun n => Ok (check n)) o <> Throw).
  { intros o H. apply each_throw in H. destruct H as (m & _ & H). discriminate. }
  induction F as [|n o l k Hn Hl IH]; cbn [any_res].
  - split; [discriminate|]. intros (? & [] & _).
  - specialize (N o). specialize (E n o Hn).
    destruct (each t (fun n => Ok (check n)) o) as [[]|]; cbn [bind]; [| |contradiction].
    + split; [|reflexivity]. intros _. exists n. split; [now left|]. now apply E.
    + rewrite IH. split; intros (x & Hx & H).
      * exists x. split; [now right|exact H].
      * destruct Hx as [->|Hx]; [|eauto]. apply E in H. discriminate.
Qed.

(** Collision with a scenario object, which has to have been added; with the rules all and any. *)
Theorem C94_entity : forall ds t ns es added c m ty,
  build ds = Ok t -> triggering t ns = Ok es ->
  let value te := collision t added c te es (OtherEntity (Obj m ty)) in
  (forall te, exists b, value te = Ok b) /\
  (value All = Ok true <->
     added m = true /\ forall n, In n ns -> forall k, member ds n k -> collide c k m) /\
  (value Any = Ok true <->
     added m = true /\ exists n, In n ns /\ forall k, member ds n k -> collide c k m) /\
  (added m = false -> forall te, value te = Ok false).
Proof.
  intros ds t ns es added c m ty Hb Ht value. unfold value. cbn [collision as_ref bind].
  unfold is_added. cbn [objects forallb]. rewrite andb_true_r.
  split; [|split; [|split]].
  - intros te. destruct (added m); [|eauto]. apply bool_total.
  - destruct (added m).
    + rewrite (bool_all ds t ns es (fun n => check_collision c n m) (fun k => collide c k m) Hb Ht
               (fun n => check_collision_spec c n m)). tauto.
    + split; [discriminate|]. intros [H _]. discriminate.
  - destruct (added m).
    + rewrite (bool_any ds t ns es (fun n => check_collision c n m) (fun k => collide c k m) Hb Ht
               (fun n => check_collision_spec c n m)). tauto.
    + split; [discriminate|]. intros [H _]. discriminate.
  - intros -> te. reflexivity.
Qed.

(** Collision with a type: every object meant collides with some scenario object declared with
    that type. *)
Theorem C94_type : forall ds t ns es added c ty,
  build ds = Ok t -> triggering t ns = Ok es ->
  let value te := collision t added c te es (OtherType ty) in
  let hit k := exists m, first_object ds m = Some ty /\ collide c k m in
  (forall te, exists b, value te = Ok b) /\
  (value All = Ok true <-> forall n, In n ns -> forall k, member ds n k -> hit k) /\
  (value Any = Ok true <-> exists n, In n ns /\ forall k, member ds n k -> hit k).
Proof.
  intros ds t ns es added c ty Hb Ht value hit. unfold value. cbn [collision].
  assert (S : forall k, existsb (check_collision c k) (of_types (fun ty' => type_eqb ty' ty) t) = true
                        <-> hit k).
  { intros k. rewrite existsb_exists. unfold hit. split; intros (m & A & B); exists m.
    - apply (of_types_spec ds t _ m (build_inv ds t Hb)) in A. destruct A as (ty' & A & T).
      apply type_eqb_eq in T. subst. split; [exact A|]. now apply check_collision_spec.
    - split; [|now apply check_collision_spec].
      apply (of_types_spec ds t _ m (build_inv ds t Hb)). exists ty. split; [exact A|].
      now apply type_eqb_eq. }
  split; [|split].
  - intros te. apply bool_total.
  - exact (bool_all ds t ns es _ hit Hb Ht S).
  - exact (bool_any ds t ns es _ hit Hb Ht S).
Qed.

(** Nothing collides with itself, and who is the triggering entity does not matter if the overlap of
    bounding boxes does not depend on the order. *)
Theorem C94_symmetric : forall c a b,
  ~ collide c a a /\
  ((forall x y, overlap c x y = overlap c y x) -> (collide c a b <-> collide c b a)).
Proof.
  intros c a b. split.
  - intros (N & _). now apply N.
  - intros S. unfold collide. rewrite (S a b). intuition.
Qed.

(** A selection as the other entity is an error as soon as a triggering object is looked at. *)
Theorem C94_selection : forall ds t n ns es added c te k os tys m,
  build ds = Ok t -> triggering t (n :: ns) = Ok es -> member ds n m ->
  is_added t added (Sel k os tys) = true ->
  collision t added c te es (OtherEntity (Sel k os tys)) = Throw.
Proof.
  intros ds t n ns es added c te k os tys m Hb Ht Hm A. unfold collision. rewrite A.
  cbn [as_ref bind]. rewrite bool_condition_each.
  assert (F := proj2 (triggering_ok t _ es Ht)). inversion F as [|n' o ns' es' Hf F']; subst.
  assert (X : each t (fun _ => Throw) o = Throw).
  { apply each_throw. exists m. split; [|reflexivity]. now apply (objects_member ds t Hb o n Hf). }
  destruct te; cbn [te_res all_res any_res]; rewrite X; reflexivity.
Qed.

Definition crash_core : core := {|
  here := here demo_core; place := place demo_core; axis_x := axis_x demo_core;
  axis_y := axis_y demo_core; axis_z := axis_z demo_core; twist := twist demo_core;
  accel := accel demo_core; still := still demo_core; length := length demo_core;
  boxes := boxes demo_core;
  lanes := fun _ _ a b =>
    Some (L (inject_Z (10 * (Z.of_nat b - Z.of_nat a))) 0);
  lane_count := fun a b => Some 0%Z; lane_heading := fun _ => Some 0;
  overlap := fun a b => (a + b =? 1)%nat
|}.
Example C94_example : exists es, triggering demo_table [0; 2]%nat = Ok es /\
  collision demo_table (fun _ => true) crash_core Any es (OtherEntity (Obj 1%nat Vehicle)) = Ok true /\
  collision demo_table (fun _ => true) crash_core All es (OtherEntity (Obj 1%nat Vehicle)) = Ok false /\
  collision demo_table (fun _ => true) crash_core Any es (OtherType Pedestrian) = Ok false /\
  collision demo_table (fun _ => true) crash_core Any es (OtherType Vehicle) = Ok true.
Proof. eexists. split; [reflexivity|]. repeat split; reflexivity. Qed.

(** ** C95 *)

Lemma is_back_sense c n : here c n = true -> lane_sense c n = if is_back c n then (-1)%Z else 1%Z.
Proof.
  intros H. unfold is_back, lane_sense. rewrite H. destruct (lane_heading c n) as [h|]; [|reflexivity].
  destruct (Qlt_le_dec half_pi (Qabs h)) as [L|L].
  - destruct (Qle_bool (Qabs h) half_pi) eqn:E; [apply Qle_bool_iff in E; lra|reflexivity].
  - apply Qle_bool_iff in L. now rewrite L.
Qed.

Lemma in_range_spec r z : in_range r z = true <-> within r z.
Proof.
  unfold in_range, within. rewrite andb_true_iff. destruct (from r) as [a|], (to r) as [b|];
    rewrite ?Z.leb_le; split; intros [A B]; split; intros; try discriminate; auto;
    try congruence; repeat match goal with H : Some _ = Some _ |- _ => inversion H; clear H; subst end; auto.
Qed.

Lemma le_num_fin p q : le_num (Fin p) (Fin q) = true <-> p <= q.
Proof.
  unfold le_num. rewrite orb_true_iff, lt_num_fin. cbn [eq_num]. rewrite Qeq_bool_iff. split.
  - intros [H|H]; lra.
  - intros H. destruct (Qlt_le_dec p q); [auto|right; lra].
Qed.

Lemma clear_spec_here c q b f n m :
  backward q = Fin b -> forward q = Fin f -> here c n = true -> here c m = true ->
  (clear c q n m = true <-> ~ in_zone c q b f n m).
Proof.
  intros Eb Ef H1 H2. unfold clear. rewrite negb_true_iff.
  enough (in_lateral c q n m && in_longitudinal c q n m = true <-> in_zone c q b f n m) as X.
  { destruct (in_lateral c q n m && in_longitudinal c q n m); split; intros H; try discriminate;
      try reflexivity; [exfalso; apply H; now apply X|]. intros Z. apply X in Z. discriminate. }
  rewrite andb_true_iff. unfold in_zone.
  assert (LAT : in_lateral c q n m = true <->
    (ranges q = [] \/
     exists z r, lane_count c n m = Some z /\ In r (ranges q) /\ within r (lane_sense c n * z))).
  { unfold in_lateral. rewrite H1, H2, (is_back_sense c n H1). cbn [andb].
    destruct (ranges q) as [|r0 rs]; [tauto|]. destruct (lane_count c n m) as [z|].
    - rewrite existsb_exists. split.
      + intros (r & I & W). right. exists z, r. split; [reflexivity|]. split; [exact I|].
        apply in_range_spec. destruct (is_back c n); rewrite <- W; f_equal; lia.
      + intros [C|(z' & r & E & I & W)]; [discriminate|]. inversion E; subst z'. exists r.
        split; [exact I|]. apply in_range_spec in W. rewrite <- W. f_equal. destruct (is_back c n); lia.
    - split; [discriminate|]. intros [C|(z & r & E & _)]; discriminate. }
  rewrite LAT.
  assert (LON : in_longitudinal c q n m = true <->
    exists l, lanes c (free_space q) Shortest n m = Some l /\
    let s := inject_Z (lane_sense c n) * l_s l in (s < 0 /\ - s <= b) \/ (0 <= s /\ s <= f)).
  { unfold in_longitudinal, lane. rewrite H1, H2, (is_back_sense c n H1), Eb, Ef. cbn [andb].
    destruct (lanes c (free_space q) Shortest n m) as [l|]; cbn [option_map].
    - set (s := inject_Z (if is_back c n then (-1)%Z else 1%Z) * l_s l).
      assert (S : exists s', of_option (if is_back c n then Some (- l_s l) else Some (l_s l)) = Fin s' /\ s' == s).
      { unfold s. destruct (is_back c n); eexists; (split; [reflexivity|]).
        - change (inject_Z (-1)) with (-1). ring.
        - change (inject_Z 1) with 1. ring. }
      change (option_map Qopp (Some (l_s l))) with (Some (- l_s l)).
      destruct S as (s' & -> & S).
      transitivity ((s < 0 /\ - s <= b) \/ (0 <= s /\ s <= f)).
      + destruct (lt_num (Fin s') (Fin 0)) eqn:E.
        * apply lt_num_fin in E. cbn [abs_num]. rewrite le_num_fin, Qabs_neg by lra. split; intros H.
          -- left. split; lra.
          -- destruct H as [[_ H]|[H _]]; lra.
        * assert (0 <= s') as P.
          { apply Qnot_lt_le. intros C. apply lt_num_fin in C. congruence. }
          rewrite le_num_fin. split; intros H.
          -- right. split; lra.
          -- destruct H as [[H _]|[_ H]]; lra.
      + split.
        * intros H. exists l. split; [reflexivity|exact H].
        * intros (l' & E & H). inversion E; subst l'. exact H.
    - destruct (is_back c n); cbn; (split; [discriminate|]); intros (l & E & _); discriminate. }
  rewrite LON. tauto.
Qed.

Lemma clear_spec c q b f n m :
  backward q = Fin b -> forward q = Fin f -> (clear c q n m = true <-> ~ in_zone c q b f n m).
Proof.
  intros Eb Ef. destruct (here c n && here c m) eqn:H.
  - apply andb_true_iff in H. destruct H. now apply clear_spec_here.
  - split.
    + intros _ (A & B & _). rewrite A, B in H. discriminate.
    + intros _. unfold clear, in_longitudinal, lane. rewrite H.
      destruct (is_back c n); cbn; now rewrite andb_false_r.
Qed.

Lemma triggering_objects ds t ns es :
  build ds = Ok t -> triggering t ns = Ok es ->
  (forall n, In n ns -> exists ty, first_object ds n = Some ty) ->
  Forall2 (fun n o => exists ty, o = Obj n ty) ns es.
Proof.
  intros Hb Ht H. assert (F := proj2 (triggering_ok t ns es Ht)). clear Ht.
  induction F as [|n o l k Hn Hl IH]; constructor.
  - destruct (H n (or_introl eq_refl)) as (ty & E). exists ty.
    apply (find_object ds t n ty Hb) in E. congruence.
  - apply IH. intros n' Hn'. apply H. now right.
Qed.

Lemma candidates_spec ds t (g : name -> bool) :
  build ds = Ok t ->
  (forallb (fun '(m, o') => match o' with Sel _ _ _ => true | Obj _ _ => g m end) t = true <->
   forall m ty, first_object ds m = Some ty -> g m = true).
Proof.
  intros Hb. rewrite forallb_forall. assert (I := build_inv ds t Hb). split.
  - intros H m ty E.
    assert (K : In m (of_types (fun _ => true) t)) by (apply (of_types_spec ds t _ m I); eauto).
    apply of_types_In in K. destruct K as (n & ty' & K & _). exact (H _ K).
  - intros H [m [n ty|]] K; [|reflexivity].
    assert (K' : In m (of_types (fun _ => true) t)) by (apply of_types_In; eauto).
    apply (of_types_spec ds t _ m I) in K'. destruct K' as (ty' & K' & _). eauto.
Qed.

(** No entities listed and the rule all: every triggering entity has its zone free of all scenario
    objects that were added and are not triggering entities. *)
Theorem C95_all : forall ds t ns es added c q b f,
  build ds = Ok t -> triggering t ns = Ok es ->
  (forall n, In n ns -> exists ty, first_object ds n = Some ty) ->
  targets q = [] -> backward q = Fin b -> forward q = Fin f ->
  exists answer, relative_clearance t added c All es q = Ok answer /\
    (answer = true <->
     forall n, In n ns -> forall m ty, first_object ds m = Some ty -> added m = true ->
       ~ In m ns -> ~ in_zone c q b f n m).
Proof.
  intros ds t ns es added c q b f Hb Ht Ho Hq Eb Ef.
  assert (F := triggering_objects ds t ns es Hb Ht Ho).
  assert (EX : forall m, excluded All es m = true <-> In m ns).
  { intros m. unfold excluded. rewrite existsb_exists. clear -F. split.
    - intros (o & I & E). apply Nat.eqb_eq in E. induction F as [|n o' l k (ty & ->) Hl IH]; [contradiction|].
      destruct I as [<-|I]; [left; exact E|right; auto].
    - intros I. induction F as [|n o' l k (ty & ->) Hl IH]; [contradiction|]. destruct I as [->|I].
      + exists (Obj m ty). split; [now left|]. apply Nat.eqb_refl.
      + destruct (IH I) as (o & ? & ?). exists o. split; [now right|assumption]. }
  set (g n m := if added m then excluded All es m || clear c q n m else true).
  assert (CO : forall n ty, clear_of t added c All es q (Obj n ty) =
     Ok (forallb (fun '(m, o') => match o' with Sel _ _ _ => true | Obj _ _ => g n m end) t)).
  { intros n ty. unfold clear_of. cbn [as_ref bind]. rewrite Hq. reflexivity. }
  assert (G : forall n, In n ns ->
    (forallb (fun '(m, o') => match o' with Sel _ _ _ => true | Obj _ _ => g n m end) t = true <->
     forall m ty, first_object ds m = Some ty -> added m = true -> ~ In m ns ->
       ~ in_zone c q b f n m)).
  { intros n Hn. rewrite (candidates_spec ds t (g n) Hb). unfold g.
    split; intros H m ty E.
    - intros A N. specialize (H m ty E). rewrite A, orb_true_iff, EX in H.
      destruct H as [H|H]; [contradiction|].
      apply (clear_spec c q b f n m Eb Ef). exact H.
    - destruct (added m) eqn:A; [|reflexivity]. rewrite orb_true_iff, EX.
      destruct (in_dec Nat.eq_dec m ns) as [I|I]; [now left|right].
      apply (clear_spec c q b f n m Eb Ef). eauto. }
  unfold relative_clearance. cbn [te_res].
  clear Ht EX Ho. assert (GG : forall n, In n ns -> In n ns) by auto. revert G.
  generalize (clear_of t added c All es q) CO. clear CO. intros cl CO G.
  assert (W : forall ns' es', Forall2 (fun n o => exists ty, o = Obj n ty) ns' es' ->
    (forall n, In n ns' -> In n ns) ->
    exists answer, all_res cl es' = Ok answer /\
    (answer = true <-> forall n, In n ns' -> forall m ty, first_object ds m = Some ty ->
       added m = true -> ~ In m ns -> ~ in_zone c q b f n m)).
  { intros ns' es' F'. induction F' as [|n o l k (ty & ->) Hl IH]; intros S; cbn [all_res].
    - exists true. split; [reflexivity|]. split; [intros _ n []|reflexivity].
    - rewrite CO. cbn [bind]. specialize (G n (S n (or_introl eq_refl))).
      destruct (forallb _ t) eqn:E.
      + destruct IH as (a & -> & A); [intros x Hx; apply S; now right|]. exists a.
        split; [reflexivity|]. rewrite A. split; intros H x Hx.
        * destruct Hx as [<-|Hx]; [now apply G|now apply H].
        * apply H. now right.
      + exists false. split; [reflexivity|]. split; [discriminate|]. intros H.
        apply G. apply H. now left. }
  exact (W ns es F GG).
Qed.

(** With the rule any only the first triggering entity is left out of the search (refuted for the
    others): a later one finds itself in its own zone, so that the answer depends on the first
    alone, and for it the other triggering entities count as obstacles. *)
Theorem C95_any_refuted : forall ds t n0 ns es added c q b f,
  build ds = Ok t -> triggering t (n0 :: ns) = Ok es ->
  (forall n, In n (n0 :: ns) -> exists ty, first_object ds n = Some ty) ->
  targets q = [] -> backward q = Fin b -> forward q = Fin f ->
  (forall n, In n (n0 :: ns) -> added n = true /\ in_zone c q b f n n) -> ~ In n0 ns ->
  exists answer, relative_clearance t added c Any es q = Ok answer /\
    (answer = true <->
     forall m ty, first_object ds m = Some ty -> added m = true -> m <> n0 ->
       ~ in_zone c q b f n0 m).
Proof.
  intros ds t n0 ns es added c q b f Hb Ht Ho Hq Eb Ef Ha Hd.
  assert (F := triggering_objects ds t _ es Hb Ht Ho).
  inversion F as [|n' o' ns' es' (ty0 & ->) F']; subst n' ns' es. clear F.
  set (es := Obj n0 ty0 :: es').
  set (g n m := if added m then excluded Any es m || clear c q n m else true).
  assert (CO : forall n ty, clear_of t added c Any es q (Obj n ty) =
     Ok (forallb (fun '(m, o') => match o' with Sel _ _ _ => true | Obj _ _ => g n m end) t)).
  { intros n ty. unfold clear_of. cbn [as_ref bind]. rewrite Hq. reflexivity. }
  assert (EX : forall m, excluded Any es m = true <-> m = n0).
  { intros m. cbn. rewrite Nat.eqb_eq. intuition. }
  assert (LATER : forall n ty, In n ns -> clear_of t added c Any es q (Obj n ty) = Ok false).
  { intros n ty Hn. rewrite CO. f_equal. apply not_true_iff_false. intros H.
    rewrite (candidates_spec ds t (g n) Hb) in H.
    destruct (Ho n (or_intror Hn)) as (ty' & E). specialize (H n ty' E). unfold g in H.
    destruct (Ha n (or_intror Hn)) as (A & Z). rewrite A, orb_true_iff, EX in H.
    destruct H as [H|H]; [congruence|].
    apply (clear_spec c q b f n n Eb Ef) in H. contradiction. }
  unfold relative_clearance. cbn [te_res]. fold es.
  assert (REST : any_res (clear_of t added c Any es q) es' = Ok false).
  { revert LATER. generalize (clear_of t added c Any es q). clear -F'. intros cl LATER.
    induction F' as [|n o l k (ty & ->) Hl IH]; cbn [any_res]; [reflexivity|].
    rewrite LATER by now left. cbn [bind]. apply IH. intros n' ty' Hn'. apply LATER. now right. }
  unfold es at 2. cbn [any_res]. rewrite CO. cbn [bind].
  assert (G : forallb (fun '(m, o') => match o' with Sel _ _ _ => true | Obj _ _ => g n0 m end) t = true <->
     forall m ty, first_object ds m = Some ty -> added m = true -> m <> n0 -> ~ in_zone c q b f n0 m).
  { rewrite (candidates_spec ds t (g n0) Hb). unfold g. split; intros H m ty E.
    - intros A N. specialize (H m ty E). rewrite A, orb_true_iff, EX in H.
      destruct H as [H|H]; [contradiction|].
      apply (clear_spec c q b f n0 m Eb Ef). exact H.
    - destruct (added m) eqn:A; [|reflexivity]. rewrite orb_true_iff, EX.
      destruct (Nat.eq_dec m n0) as [I|I]; [now left|right].
      apply (clear_spec c q b f n0 m Eb Ef). eauto. }
  destruct (forallb _ t).
  - exists true. split; [reflexivity|]. tauto.
  - exists false. rewrite REST. split; [reflexivity|]. tauto.
Qed.

(** Listed scenario objects and the rule all: every triggering entity has its zone free of them,
    be they triggering entities themselves or not. *)
Theorem C95_listed : forall ds t ns es added c q b f ms,
  build ds = Ok t -> triggering t ns = Ok es ->
  (forall n, In n ns -> exists ty, first_object ds n = Some ty) ->
  targets q <> [] -> Forall2 (fun m o => exists ty, o = Obj m ty) ms (targets q) ->
  backward q = Fin b -> forward q = Fin f ->
  exists answer, relative_clearance t added c All es q = Ok answer /\
    (answer = true <-> forall n m, In n ns -> In m ms -> ~ in_zone c q b f n m).
Proof.
  intros ds t ns es added c q b f ms Hb Ht Ho Hq FT Eb Ef.
  assert (F := triggering_objects ds t ns es Hb Ht Ho).
  assert (CO : forall n ty, exists a, clear_of t added c All es q (Obj n ty) = Ok a /\
    (a = true <-> forall m, In m ms -> ~ in_zone c q b f n m)).
  { intros n ty. unfold clear_of. cbn [as_ref bind].
    enough (X : exists a, all_res (fun o' => bind (as_ref o') (fun m => Ok (clear c q n m))) (targets q) = Ok a /\
      (a = true <-> forall m, In m ms -> ~ in_zone c q b f n m))
      by (destruct (targets q); [contradiction|exact X]).
    clear Hq. induction FT as [|m o l k (tm & ->) Hl IH]; cbn [all_res].
    - exists true. split; [reflexivity|]. split; [intros _ m []|reflexivity].
    - cbn [as_ref bind]. assert (C := clear_spec c q b f n m Eb Ef). destruct (clear c q n m).
      + destruct IH as (a & -> & A). exists a. split; [reflexivity|]. rewrite A. split; intros H x Hx.
        * destruct Hx as [<-|Hx]; [now apply C|now apply H].
        * apply H. now right.
      + exists false. split; [reflexivity|]. split; [discriminate|]. intros H. apply C, H. now left. }
  unfold relative_clearance. cbn [te_res]. revert CO. generalize (clear_of t added c All es q).
  clear -F. intros cl CO. induction F as [|n o l k (ty & ->) Hl IH]; cbn [all_res].
  - exists true. split; [reflexivity|]. split; [intros _ n m []|reflexivity].
  - destruct (CO n ty) as (a & -> & A). cbn [bind]. destruct a.
    + destruct IH as (a' & -> & A'). exists a'. split; [reflexivity|]. rewrite A'.
      split; intros H x m Hx Hm.
      * destruct Hx as [<-|Hx]; [now apply A|now apply H].
      * apply H; [now right|exact Hm].
    + exists false. split; [reflexivity|]. split; [discriminate|]. intros H. apply A. intros m Hm.
      apply H; [now left|exact Hm].
Qed.

(** A selection, listed or triggering, is never looked into: the condition is not satisfied by the
    rules all and any but ends with an error or false. *)
Theorem C95_selection_refuted : forall t added c te es q,
  es <> [] -> te = All \/ te = Any ->
  (exists k os tys, In (Sel k os tys) (targets q)) \/
  (forall o, In o es -> exists k os tys, o = Sel k os tys) ->
  relative_clearance t added c te es q <> Ok true.
Proof.
  intros t added c te es q N T S.
  assert (X : forall o, In o es -> clear_of t added c te es q o <> Ok true).
  { intros o Io. unfold clear_of. destruct o as [n ty|]; [|discriminate]. cbn [as_ref bind].
    destruct S as [(k & os & tys & I)|S]; [|destruct (S _ Io) as (? & ? & ? & ?); discriminate].
    assert (all_res (fun o' => bind (as_ref o') (fun m => Ok (clear c q n m))) (targets q) <> Ok true).
    { intros H. rewrite all_res_true in H. specialize (H _ I). discriminate. }
    destruct (targets q); [contradiction|assumption]. }
  unfold relative_clearance. destruct T as [-> | ->]; cbn [te_res].
  - intros H. rewrite all_res_true in H. destruct es as [|o l]; [contradiction|].
    apply (X o (or_introl eq_refl)). apply H. now left.
  - intros H. apply any_res_spec in H. destruct H as [(_ & pre & o & post & -> & H & _)|[H _]]; [|discriminate].
    apply (X o); [apply in_elt|exact H].
Qed.

Example C95_example :
  let q b f := {| backward := Fin b; forward := Fin f; free_space := false;
                  ranges := [{| from := Some 0%Z; to := Some 0%Z |}]; targets := [] |} in
  exists es, triggering demo_table [0; 1]%nat = Ok es /\
    relative_clearance demo_table (fun _ => true) crash_core All es (q 5 5) = Ok true /\
    relative_clearance demo_table (fun _ => true) crash_core All es (q 5 15) = Ok false /\
    relative_clearance demo_table (fun n => (n <? 2)%nat) crash_core All es (q 5 15) = Ok true /\
    relative_clearance demo_table (fun n => (n <? 2)%nat) crash_core Any es (q 5 15) = Ok false /\
    in_zone crash_core (q 5 15) 5 15 1%nat 1%nat.
Proof.
  cbn zeta beta. eexists. split; [reflexivity|]. split; [reflexivity|]. split; [reflexivity|].
  split; [reflexivity|]. split; [reflexivity|].
  split; [reflexivity|]. split; [reflexivity|]. split.
  - right. exists 0%Z, {| from := Some 0%Z; to := Some 0%Z |}. split; [reflexivity|].
    split; [now left|]. split; intros ? H; inversion H; vm_compute; discriminate.
  - exists (L 0 0). split; [reflexivity|]. right. split; vm_compute; discriminate.
Qed.

Print Assumptions C92_behind.
Print Assumptions C92_ahead_refuted.
Print Assumptions C92_receding_refuted.
Print Assumptions C92_position.
Print Assumptions C92_quotient.
Print Assumptions C92_unsupported.
Print Assumptions C93_headway.
Print Assumptions C93_backwards_refuted.
Print Assumptions C93_selection.
Print Assumptions C94_entity.
Print Assumptions C94_type.
Print Assumptions C94_symmetric.
Print Assumptions C94_selection.
Print Assumptions C95_all.
Print Assumptions C95_any_refuted.
Print Assumptions C95_listed.
Print Assumptions C95_selection_refuted.
Print Assumptions C96_relative_speed.
Print Assumptions C96_relative_speed_aligned.
Print Assumptions C96_relative_speed_length.
Print Assumptions C96_relative_distance.
Print Assumptions C96_relative_distance_symmetric.
Print Assumptions C96_distance_sign_refuted.
Print Assumptions C96_lane_distance.
Print Assumptions C96_unsupported.
Print Assumptions C96_own_values.
Print Assumptions C96_freespace.
Print Assumptions C92_position_quotient.
