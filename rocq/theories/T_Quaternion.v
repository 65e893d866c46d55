(** C214-C216: orientations. *)
From Coq Require Import Reals Lra.
From Verif Require Import M_Ego M_Quaternion S_Quaternion P_Quaternion.
Local Open Scope R_scope.

Ltac open := unfold rotate, times, rotation_matrix; cbn -[Rdiv].

(** *** C214 *)
Theorem C214_compose a b v : rotate (mul a b) v = rotate a (rotate b v).
Proof. apply vec_eq; open; ring. Qed.

Theorem C214_unit a b : unit a -> unit b -> unit (mul a b).
Proof.
  unfold unit. intros A B. cbn.
  match goal with |- ?l = 1 =>
    replace l with ((q_x a * q_x a + q_y a * q_y a + q_z a * q_z a + q_w a * q_w a) *
                    (q_x b * q_x b + q_y b * q_y b + q_z b * q_z b + q_w b * q_w b)) by ring end.
  rewrite A, B. ring.
Qed.

Theorem C214_rigid q u v : unit q -> inner (rotate q u) (rotate q v) = inner u v.
Proof.
  unfold unit, inner. intros Q. open.
  match goal with |- ?l = ?r =>
    replace l with (r * ((q_x q * q_x q + q_y q * q_y q + q_z q * q_z q + q_w q * q_w q) *
                         (q_x q * q_x q + q_y q * q_y q + q_z q * q_z q + q_w q * q_w q))) by ring end.
  rewrite Q. ring.
Qed.

Lemma between from to : unit from -> mul from (rotation_between from to) = to.
Proof.
  unfold unit. intros F.
  apply quat_eq; cbn;
    match goal with |- ?l = ?r =>
      replace l with (r * (q_x from * q_x from + q_y from * q_y from + q_z from * q_z from + q_w from * q_w from))
        by ring end; rewrite F; ring.
Qed.
Lemma after from r : unit from -> rotation_between from (mul from r) = r.
Proof.
  unfold unit. intros F.
  apply quat_eq; cbn;
    match goal with |- ?l = ?r =>
      replace l with (r * (q_x from * q_x from + q_y from * q_y from + q_z from * q_z from + q_w from * q_w from))
        by ring end; rewrite F; ring.
Qed.
(** The rotation between two orientations is the one that, in the frame of the first, leads to the
    second, and the only one. *)
Theorem C214_between from to r : unit from -> (mul from r = to <-> r = rotation_between from to).
Proof.
  intros F. split; intros H.
  - rewrite <- H. symmetry. apply after, F.
  - rewrite H. apply between, F.
Qed.

Theorem C214_between_unit from to : unit from -> unit to -> unit (rotation_between from to).
Proof.
  intros F T. apply C214_unit; [| exact T]. unfold unit in *. cbn. rewrite <- F. ring.
Qed.

Theorem C214_normalize q n : normalize q = Some n ->
  unit n /\ exists k, 0 < k /\ q = quat (k * q_x n) (k * q_y n) (k * q_z n) (k * q_w n).
Proof.
  unfold normalize. destruct (Rle_dec (Rabs (norm q)) epsilon) as [L | L]; [discriminate |].
  intros E. injection E as <-.
  pose proof (norm_nonneg q) as P. rewrite Rabs_right in L by lra.
  assert (0 < epsilon) as Pe by (unfold epsilon; apply Rinv_0_lt_compat, pow_lt; lra).
  assert (0 < norm q) as N by lra.
  split.
  - unfold unit. cbn -[Rdiv].
    match goal with |- ?l = 1 =>
      replace l with ((q_x q * q_x q + q_y q * q_y q + q_z q * q_z q + q_w q * q_w q) / (norm q * norm q))
        by (field; lra) end.
    rewrite <- norm_square. field. lra.
  - exists (norm q). split; [exact N |]. apply quat_eq; cbn -[Rdiv]; field; lra.
Qed.

(** Only quaternions too short for it are refused. *)
Theorem C214_normalize_refused q : normalize q = None <->
  sqrt (q_x q * q_x q + q_y q * q_y q + q_z q * q_z q + q_w q * q_w q) <= / 2 ^ 52.
Proof.
  rewrite <- norm_square, sqrt_square by apply norm_nonneg.
  unfold normalize. rewrite Rabs_right by (apply Rle_ge, norm_nonneg). unfold epsilon.
  destruct (Rle_dec (norm q) (/ 2 ^ 52)); split; intros; try discriminate; try lra; reflexivity.
Qed.

Theorem C214_normal q : normal_vector q = rotate q (upward 1).
Proof. apply vec_eq; open; ring. Qed.

Example C214_unit_case : unit (turn 1) /\ unit (quat (3 / 5) 0 (4 / 5) 0).
Proof.
  split; unfold unit; cbn -[Rdiv]; [| field].
  pose proof (sin2_cos2 (1 / 2)) as E. unfold Rsqr in E. lra.
Qed.
Example C214_normalize_case : exists n, normalize (quat 0 0 3 4) = Some n /\ q_z n = 3 / 5.
Proof.
  assert (norm (quat 0 0 3 4) = 5) as E.
  { unfold norm, hypot. cbn.
    replace (4 * 4 + 0 * 0) with (4 * 4) by ring. rewrite sqrt_square by lra.
    replace (0 * 0 + 3 * 3) with (3 * 3) by ring. rewrite sqrt_square by lra.
    replace (4 * 4 + 3 * 3) with (5 * 5) by ring. apply sqrt_square. lra. }
  unfold normalize. rewrite E. destruct (Rle_dec (Rabs 5) epsilon) as [L | L].
  - exfalso. rewrite Rabs_right in L by lra. unfold epsilon in L.
    assert (/ 2 ^ 52 <= 1) by (rewrite <- Rinv_1; apply Rinv_le_contravar; [lra | apply pow_R1_Rle; lra]). lra.
  - eexists. split; [reflexivity |]. reflexivity.
Qed.

(** *** C215 *)
Definition apart (a b : Quat) : Prop := / 2 ^ 52 < 1 - inner4 a b * inner4 a b.

Lemma bound a b : unit a -> unit b -> inner4 a b * inner4 a b <= 1.
Proof.
  unfold unit, inner4. intros A B.
  assert (0 <= (q_x a * q_y b - q_y a * q_x b) * (q_x a * q_y b - q_y a * q_x b) +
               (q_x a * q_z b - q_z a * q_x b) * (q_x a * q_z b - q_z a * q_x b) +
               (q_x a * q_w b - q_w a * q_x b) * (q_x a * q_w b - q_w a * q_x b) +
               (q_y a * q_z b - q_z a * q_y b) * (q_y a * q_z b - q_z a * q_y b) +
               (q_y a * q_w b - q_w a * q_y b) * (q_y a * q_w b - q_w a * q_y b) +
               (q_z a * q_w b - q_w a * q_z b) * (q_z a * q_w b - q_w a * q_z b)) as P
    by (repeat apply Rplus_le_le_0_compat; apply square_nonneg).
  assert ((q_x a * q_x a + q_y a * q_y a + q_z a * q_z a + q_w a * q_w a) *
          (q_x b * q_x b + q_y b * q_y b + q_z b * q_z b + q_w b * q_w b) = 1) as O by (rewrite A, B; ring).
  lra.
Qed.

Lemma slerp_near a b t : unit a -> unit b -> ~ apart a b -> slerp a b t = a.
Proof.
  intros A B N. unfold slerp, apart, epsilon, inner4 in *.
  match goal with |- context [Rle_dec ?x ?y] => destruct (Rle_dec x y) as [L | L] end; [reflexivity |].
  exfalso. apply N. pose proof (bound a b A B) as P. unfold inner4 in P.
  rewrite Rabs_right in L; lra.
Qed.
Lemma slerp_apart a b t : apart a b ->
  let c := inner4 a b in
  let p := acos c in
  slerp a b t =
    quat (q_x a * (sin (p - p * t) / sin p) + q_x b * (sin (p * t) / sin p))
         (q_y a * (sin (p - p * t) / sin p) + q_y b * (sin (p * t) / sin p))
         (q_z a * (sin (p - p * t) / sin p) + q_z b * (sin (p * t) / sin p))
         (q_w a * (sin (p - p * t) / sin p) + q_w b * (sin (p * t) / sin p))
  /\ 0 < sin p /\ cos p = c.
Proof.
  intros N c p. unfold apart in N. fold c in N.
  assert (0 < / 2 ^ 52) as Pe by (apply Rinv_0_lt_compat, pow_lt; lra).
  assert (-1 <= c <= 1) as B.
  { destruct (Rle_dec (-1) c) as [G | G].
    - destruct (Rle_dec c 1) as [G' | G']; [lra |]. exfalso.
      assert (1 * 1 < c * c) by (apply Rmult_le_0_lt_compat; lra). lra.
    - exfalso. assert (1 * 1 < (- c) * (- c)) by (apply Rmult_le_0_lt_compat; lra). lra. }
  assert (sin p = sqrt (1 - c * c)) as S by (unfold p; rewrite sin_acos by exact B; reflexivity).
  assert (0 < sin p) as SP by (rewrite S; apply sqrt_lt_R0; lra).
  split; [| split; [exact SP | apply cos_acos, B]].
  unfold slerp, epsilon.
  replace (q_w a * q_w b + q_x a * q_x b + q_y a * q_y b + q_z a * q_z b) with c
    by (unfold c, inner4; ring).
  destruct (Rle_dec (Rabs (1 - c * c)) (/ 2 ^ 52)) as [L | L].
  - exfalso. rewrite Rabs_right in L by lra. lra.
  - fold p. rewrite <- S. reflexivity.
Qed.

Theorem C215_start a b : unit a -> unit b -> slerp a b 0 = a.
Proof.
  intros A B. destruct (Rlt_dec (/ 2 ^ 52) (1 - inner4 a b * inner4 a b)) as [N | N].
  - destruct (slerp_apart a b 0 N) as (E & S & _). rewrite E.
    replace (acos (inner4 a b) - acos (inner4 a b) * 0) with (acos (inner4 a b)) by ring.
    replace (acos (inner4 a b) * 0) with 0 by ring. rewrite sin_0.
    apply quat_eq; cbn -[Rdiv]; field; lra.
  - apply slerp_near; assumption.
Qed.

Theorem C215_finish a b : unit a -> unit b -> apart a b -> slerp a b 1 = b.
Proof.
  intros A B N. destruct (slerp_apart a b 1 N) as (E & S & _). rewrite E.
  replace (acos (inner4 a b) - acos (inner4 a b) * 1) with 0 by ring.
  replace (acos (inner4 a b) * 1) with (acos (inner4 a b)) by ring. rewrite sin_0.
  apply quat_eq; cbn -[Rdiv]; field; lra.
Qed.

Lemma slerp_inner a b t : unit a -> unit b -> apart a b ->
  inner4 a (slerp a b t) = cos (t * acos (inner4 a b)) /\ inner4 (slerp a b t) (slerp a b t) = 1.
Proof.
  intros A B N. destruct (slerp_apart a b t N) as (E & S & C).
  set (p := acos (inner4 a b)) in *.
  set (u := sin (p - p * t) / sin p) in *. set (v := sin (p * t) / sin p) in *.
  assert (inner4 a a = 1) as IA by exact A. assert (inner4 b b = 1) as IB by exact B.
  assert (inner4 a (slerp a b t) = u * inner4 a a + v * inner4 a b) as I1.
  { rewrite E. unfold inner4. cbn -[Rdiv]. ring. }
  assert (inner4 (slerp a b t) (slerp a b t) = u * u * inner4 a a + 2 * (u * v * inner4 a b) + v * v * inner4 b b) as I2.
  { rewrite E. unfold inner4. cbn -[Rdiv]. ring. }
  rewrite IA, IB, <- C in *.
  pose proof (sin2_cos2 p) as O. unfold Rsqr in O.
  pose proof (sin2_cos2 (p * t)) as O'. unfold Rsqr in O'.
  assert (u = (sin p * cos (p * t) - cos p * sin (p * t)) / sin p) as U
    by (unfold u; rewrite sin_minus; reflexivity).
  replace (t * p) with (p * t) by ring.
  split.
  - rewrite I1, U. unfold v. field. lra.
  - rewrite I2, U. unfold v.
    set (s := sin p) in *. set (c := cos p) in *. set (s' := sin (p * t)) in *. set (c' := cos (p * t)) in *.
    replace ((s * c' - c * s') / s * ((s * c' - c * s') / s) * 1 + 2 * ((s * c' - c * s') / s * (s' / s) * c) +
             s' / s * (s' / s) * 1)
      with (c' * c' + (s' * s') * ((1 - c * c) / (s * s))) by (field; lra).
    replace (1 - c * c) with (s * s) by lra.
    replace (s * s / (s * s)) with 1 by (field; lra). lra.
Qed.

Theorem C215_unit a b t : unit a -> unit b -> unit (slerp a b t).
Proof.
  intros A B. destruct (Rlt_dec (/ 2 ^ 52) (1 - inner4 a b * inner4 a b)) as [N | N].
  - exact (proj2 (slerp_inner a b t A B N)).
  - rewrite slerp_near; assumption.
Qed.

(** The angle covered is in proportion to the ratio. *)
Theorem C215_rate a b t : unit a -> unit b -> apart a b ->
  inner4 a (slerp a b t) = cos (t * acos (inner4 a b)).
Proof. intros A B N. apply (slerp_inner a b t A B N). Qed.

Theorem C215_same a b t : unit a -> unit b -> ~ apart a b -> slerp a b t = a.
Proof. apply slerp_near. Qed.

Lemma sin_pos_PI3 : sin (PI / 3) = sqrt 3 / 2. Proof. apply sin_PI3. Qed.
Lemma sqrt3 : sqrt 3 * sqrt 3 = 3. Proof. apply sqrt_def. lra. Qed.
Lemma eps_small : / 2 ^ 52 < 1 / 4.
Proof.
  replace (1 / 4) with (/ 2 ^ 2) by (cbn; field).
  apply Rinv_lt_contravar; [apply Rmult_lt_0_compat; apply pow_lt; lra | apply Rlt_pow; [lra | Lia.lia]].
Qed.

Definition third : Quat := quat 0 0 (sqrt 3 / 2) (1 / 2).
Definition third' : Quat := quat 0 0 (- (sqrt 3 / 2)) (- (1 / 2)).
Lemma third_unit : unit third /\ unit third'.
Proof. pose proof sqrt3. split; unfold unit; cbn -[Rdiv]; lra. Qed.

(** Which of the two quaternions of an orientation is given decides which way the entity turns: on the
    way to the orientation a third of a turn to the left it is, half way, either a sixth of a turn to
    the left or a third of a turn to the right. *)
Theorem C215_shortest_refuted : exists b b', unit b /\ unit b' /\ same_orientation b b' /\
  slerp still b (1 / 2) = turn (PI / 3) /\
  slerp still b' (1 / 2) = turn (- (2 * (PI / 3))) /\
  ~ same_orientation (slerp still b (1 / 2)) (slerp still b' (1 / 2)).
Proof.
  pose proof sqrt3 as S3. pose proof PI_RGT_0 as PP.
  assert (0 < sqrt 3) as P3 by (apply sqrt_lt_R0; lra).
  pose proof eps_small as ES.
  exists third, third'. destruct third_unit as [U U'].
  split; [exact U |]. split; [exact U' |].
  split.
  { intros v. apply vec_eq; open; unfold third, third'; cbn -[Rdiv]; ring. }
  assert (acos (1 / 2) = PI / 3) as A1 by (rewrite <- cos_PI3; apply acos_cos; lra).
  assert (acos (- (1 / 2)) = 2 * (PI / 3)) as A2.
  { replace (- (1 / 2)) with (cos (2 * (PI / 3))) by (rewrite cos_2PI3; lra). apply acos_cos. lra. }
  assert (slerp still third (1 / 2) = turn (PI / 3)) as E1.
  { assert (inner4 still third = 1 / 2) as I by (unfold inner4; cbn -[Rdiv]; lra).
    assert (apart still third) as N by (unfold apart; rewrite I; lra).
    destruct (slerp_apart still third (1 / 2) N) as (E & _). rewrite I, A1 in E. rewrite E.
    replace (PI / 3 - PI / 3 * (1 / 2)) with (PI / 6) by field.
    replace (PI / 3 * (1 / 2)) with (PI / 6) by field.
    rewrite sin_PI6, sin_PI3. unfold turn. replace (PI / 3 / 2) with (PI / 6) by field.
    rewrite sin_PI6, cos_PI6.
    apply quat_eq; unfold still, third; cbn -[Rdiv]; [field; lra | field; lra | field; lra |].
    replace (1 * (1 / 2 / (sqrt 3 / 2)) + 1 / 2 * (1 / 2 / (sqrt 3 / 2)))
      with ((3 / 2) / sqrt 3) by (field; lra).
    replace (3 / 2 / sqrt 3) with (sqrt 3 * sqrt 3 / 2 / sqrt 3) by (rewrite S3; reflexivity). field. lra. }
  assert (slerp still third' (1 / 2) = turn (- (2 * (PI / 3)))) as E2.
  { assert (inner4 still third' = - (1 / 2)) as I by (unfold inner4; cbn -[Rdiv]; lra).
    assert (apart still third') as N by (unfold apart; rewrite I; lra).
    destruct (slerp_apart still third' (1 / 2) N) as (E & _). rewrite I, A2 in E. rewrite E.
    replace (2 * (PI / 3) - 2 * (PI / 3) * (1 / 2)) with (PI / 3) by field.
    replace (2 * (PI / 3) * (1 / 2)) with (PI / 3) by field.
    rewrite sin_2PI3, sin_PI3. unfold turn.
    replace (- (2 * (PI / 3)) / 2) with (- (PI / 3)) by field.
    rewrite sin_neg, cos_neg, sin_PI3, cos_PI3.
    apply quat_eq; unfold still, third'; cbn -[Rdiv]; field; lra. }
  split; [exact E1 |]. split; [exact E2 |].
  rewrite E1, E2. intros H. specialize (H (ahead 1)).
  apply (f_equal vec_y) in H. revert H. unfold turn, ahead. open.
  replace (PI / 3 / 2) with (PI / 6) by field.
  replace (- (2 * (PI / 3)) / 2) with (- (PI / 3)) by field.
  rewrite sin_PI6, cos_PI6, sin_neg, cos_neg, sin_PI3, cos_PI3. lra.
Qed.

Example C215_case : unit still /\ unit third /\ apart still third.
Proof.
  split; [unfold unit; cbn; lra |]. split; [apply third_unit |].
  unfold apart. pose proof eps_small. unfold inner4. cbn -[Rdiv]. lra.
Qed.

(** *** C216 *)
Definition raise (angle : R) : Quat := quat 0 (sin (angle / 2)) 0 (cos (angle / 2)).
Definition lean (angle : R) : Quat := quat (sin (angle / 2)) 0 0 (cos (angle / 2)).

(** First the roll, then the pitch, then the yaw, each about the axes of the map. *)
Theorem C216_order roll pitch yaw v :
  rotate (from_euler roll pitch yaw) v = rotate (turn yaw) (rotate (raise pitch) (rotate (lean roll) v)).
Proof.
  rewrite <- !C214_compose. f_equal. unfold turn, raise, lean. rewrite (half_turn roll), (half_turn pitch), (half_turn yaw).
  apply quat_eq; cbn -[Rdiv]; ring.
Qed.

Theorem C216_axes angle k :
  rotate (turn angle) (ahead k) = vec (k * cos angle) (k * sin angle) 0 /\
  rotate (turn angle) (upward k) = upward k /\
  rotate (raise angle) (ahead k) = vec (k * cos angle) 0 (k * - sin angle) /\
  rotate (raise angle) (leftward k) = leftward k /\
  rotate (lean angle) (leftward k) = vec 0 (k * cos angle) (k * sin angle) /\
  rotate (lean angle) (ahead k) = ahead k.
Proof.
  unfold turn, raise, lean, ahead, upward, leftward. rewrite (half_turn angle).
  pose proof (half_cos angle) as C. pose proof (half_sin angle) as S. pose proof (half_one angle) as O.
  repeat split; apply vec_eq; open; try rewrite <- C; try rewrite <- S; try ring;
    match goal with |- _ = k => transitivity (k * (sin (angle * (1 / 2)) * sin (angle * (1 / 2)) + cos (angle * (1 / 2)) * cos (angle * (1 / 2)))); [| rewrite O]; ring end.
Qed.

Lemma from_euler_unit r p y : unit (from_euler r p y).
Proof.
  assert (from_euler r p y = mul (turn y) (mul (raise p) (lean r))) as E.
  { unfold turn, raise, lean. rewrite (half_turn r), (half_turn p), (half_turn y). apply quat_eq; cbn -[Rdiv]; ring. }
  rewrite E.
  pose proof (fun a => sin2_cos2 (a / 2)) as O. unfold Rsqr in O.
  apply C214_unit; [| apply C214_unit]; unfold unit, turn, raise, lean; cbn -[Rdiv];
    [pose proof (O y) | pose proof (O p) | pose proof (O r)]; lra.
Qed.
Theorem C216_unit roll pitch yaw : unit (from_euler roll pitch yaw).
Proof. apply from_euler_unit. Qed.

Lemma euler_level pitch yaw :
  (forall k, rotate (from_euler 0 pitch yaw) (ahead k) =
     vec (k * (cos pitch * cos yaw)) (k * (cos pitch * sin yaw)) (k * - sin pitch)) /\
  (forall k, vec_z (rotate (from_euler 0 pitch yaw) (leftward k)) = 0) /\
  (forall k, vec_z (rotate (from_euler 0 pitch yaw) (upward k)) = k * cos pitch).
Proof.
  assert (forall v, rotate (lean 0) v = v) as L.
  { intros v. unfold lean. replace (0 / 2) with 0 by field. rewrite sin_0, cos_0.
    apply vec_eq; open; ring. }
  pose proof (half_cos pitch) as C. pose proof (half_sin pitch) as S. pose proof (half_one pitch) as O.
  pose proof (half_cos yaw) as C'. pose proof (half_sin yaw) as S'. pose proof (half_one yaw) as O'.
  assert (forall x y z, rotate (turn yaw) (vec x y z) =
            vec (x * cos yaw - y * sin yaw) (x * sin yaw + y * cos yaw) z) as T.
  { intros x y z. unfold turn. rewrite (half_turn yaw), <- C', <- S'. apply vec_eq; open; try ring.
    transitivity (z * (sin (yaw * (1 / 2)) * sin (yaw * (1 / 2)) + cos (yaw * (1 / 2)) * cos (yaw * (1 / 2)))); [| rewrite O']; ring. }
  split; [| split]; intros k; rewrite C216_order, L.
  - destruct (C216_axes pitch k) as (_ & _ & E & _). rewrite E, T. f_equal; ring.
  - destruct (C216_axes pitch k) as (_ & _ & _ & E & _). rewrite E. unfold leftward. rewrite T. reflexivity.
  - unfold upward. assert (exists x y, rotate (raise pitch) (vec 0 0 k) = vec x y (k * cos pitch)) as (x & y & E).
    { eexists _, _. unfold raise. rewrite (half_turn pitch), <- C. apply vec_eq; open; [reflexivity | reflexivity | ring]. }
    rewrite E, T. reflexivity.
Qed.

(** An orientation made from a direction looks into that direction, without leaning to a side and
    without lying on its back; from no direction at all comes no turn. *)
Theorem C216_direction d :
  rotate (from_direction d) (ahead (length d)) = d /\
  vec_z (rotate (from_direction d) (leftward 1)) = 0 /\
  0 <= vec_z (rotate (from_direction d) (upward 1)) /\
  (d = vec 0 0 0 -> from_direction d = still).
Proof.
  unfold from_direction. set (h := hypot (vec_x d) (vec_y d)).
  set (p := atan2 (- vec_z d) h). set (y := atan2 (vec_y d) (vec_x d)).
  destruct (atan2_direction (- vec_z d) h) as [A B]. fold p in A, B.
  destruct (atan2_direction (vec_y d) (vec_x d)) as [A' B']. fold y h in A', B'.
  assert (hypot h (- vec_z d) = length d) as L.
  { unfold hypot at 1, length, inner. f_equal. unfold h. rewrite hypot_square. ring. }
  rewrite L in A, B.
  destruct (euler_level p y) as (E & F & G).
  split; [| split; [| split]].
  - rewrite E. apply vec_eq; cbn.
    + rewrite <- Rmult_assoc, A. exact A'.
    + rewrite <- Rmult_assoc, A. exact B'.
    + lra.
  - apply F.
  - rewrite G, Rmult_1_l.
    assert (0 <= length d) as P by apply sqrt_pos. assert (0 <= h) as Ph by apply hypot_nonneg.
    destruct (Req_dec (length d) 0) as [Z | Z].
    + assert (h = 0) as H0 by (rewrite <- A, Z; ring). assert (vec_z d = 0) as Z0 by (rewrite Z in B; lra).
      unfold p, atan2. rewrite H0, Z0.
      repeat match goal with |- context [Rlt_dec ?a ?b] => destruct (Rlt_dec a b); try lra end.
      rewrite cos_0. lra.
    + apply (Rmult_le_reg_l (length d)); lra.
  - intros ->. unfold p, y, h. cbn.
    assert (hypot 0 0 = 0) as Z by (unfold hypot; replace (0 * 0 + 0 * 0) with 0 by ring; apply sqrt_0).
    rewrite Z. unfold atan2.
    repeat match goal with |- context [Rlt_dec ?a ?b] => destruct (Rlt_dec a b); try lra end.
    unfold from_euler, still. replace (0 * (1 / 2)) with 0 by ring. rewrite sin_0, cos_0.
    apply quat_eq; cbn; ring.
Qed.

(** The yaw read from an orientation is the angle at which it looks across the map. *)
Theorem C216_yaw q : unit q -> -1 < vec_z (rotate q (ahead 1)) < 1 ->
  - PI < yaw_of q <= PI /\
  exists r, 0 < r /\ vec_x (rotate q (ahead 1)) = r * cos (yaw_of q) /\
                     vec_y (rotate q (ahead 1)) = r * sin (yaw_of q).
Proof.
  intros U V. unfold yaw_of. unfold unit in U. rewrite U.
  assert (2 / 1 * (q_x q * q_z q - q_w q * q_y q) = vec_z (rotate q (ahead 1))) as E by (open; field).
  rewrite E. set (m := vec_z (rotate q (ahead 1))) in *.
  destruct (Rle_dec 1 (Rabs m)) as [L | L].
  { exfalso. unfold Rabs in L. destruct (Rcase_abs m); lra. }
  split; [apply atan2_range |].
  set (c := cos (- asin m)).
  assert (c = sqrt (1 - m * m)) as C by (unfold c; rewrite cos_neg, cos_asin by lra; reflexivity).
  assert (m * m < 1) as M.
  { replace 1 with (1 * 1) by ring. destruct (Rle_dec 0 m).
    - apply Rmult_le_0_lt_compat; lra.
    - replace (m * m) with ((- m) * (- m)) by ring. apply Rmult_le_0_lt_compat; lra. }
  assert (0 < c) as PC by (rewrite C; apply sqrt_lt_R0; lra).
  assert (1 - 2 / 1 * (q_y q * q_y q + q_z q * q_z q) = vec_x (rotate q (ahead 1))) as X.
  { open. rewrite <- U at 1. field. }
  assert (2 / 1 * (q_x q * q_y q + q_w q * q_z q) = vec_y (rotate q (ahead 1))) as Y by (open; field).
  rewrite X, Y. set (x := vec_x (rotate q (ahead 1))) in *. set (y := vec_y (rotate q (ahead 1))) in *.
  destruct (atan2_direction (y / c) (x / c)) as [A B].
  set (a := atan2 (y / c) (x / c)) in *.
  exists (c * hypot (x / c) (y / c)).
  assert (x = c * (x / c)) as X' by (field; lra). assert (y = c * (y / c)) as Y' by (field; lra).
  split; [| split].
  - apply Rmult_lt_0_compat; [exact PC |].
    destruct (hypot_nonneg (x / c) (y / c)) as [P | P]; [exact P | exfalso].
    symmetry in P. apply hypot_zero in P. destruct P as [P1 P2].
    assert (inner (rotate q (ahead 1)) (rotate q (ahead 1)) = 1) as I.
    { rewrite C214_rigid by exact U. unfold inner, ahead. cbn. ring. }
    unfold inner in I. fold x y m in I. rewrite P1, Rmult_0_r in X'. rewrite P2, Rmult_0_r in Y'.
    rewrite X', Y' in I. lra.
  - rewrite Rmult_assoc, A. exact X'.
  - rewrite Rmult_assoc, B. exact Y'.
Qed.

Theorem C216_yaw_given yaw : - PI < yaw <= PI -> yaw_of (from_euler 0 0 yaw) = yaw.
Proof.
  intros R.
  destruct (euler_level 0 yaw) as (E & _). specialize (E 1). rewrite cos_0, sin_0 in E.
  assert (-1 < vec_z (rotate (from_euler 0 0 yaw) (ahead 1)) < 1) as V by (rewrite E; cbn; lra).
  destruct (C216_yaw _ (from_euler_unit 0 0 yaw) V) as (R' & r & P & X & Y).
  rewrite E in X, Y. cbn in X, Y. rewrite !Rmult_1_l in X, Y.
  set (a := yaw_of (from_euler 0 0 yaw)) in *.
  pose proof (sin2_cos2 a) as O. pose proof (sin2_cos2 yaw) as O'. unfold Rsqr in O, O'.
  assert (r * r = 1) as R1.
  { rewrite X, Y in O'. replace (r * r) with (r * r * (sin a * sin a + cos a * cos a)) by (rewrite O; ring).
    rewrite <- O'. ring. }
  assert (r = 1) as ->.
  { apply Rsqr_inj; unfold Rsqr; lra. }
  apply angle_unique; [exact R' | exact R | lra | lra].
Qed.

Example C216_case : rotate (from_direction (vec 0 3 4)) (ahead 5) = vec 0 3 4.
Proof.
  destruct (C216_direction (vec 0 3 4)) as (E & _).
  assert (length (vec 0 3 4) = 5) as L.
  { unfold length, inner. cbn. replace (0 * 0 + 3 * 3 + 4 * 4) with (5 * 5) by ring. apply sqrt_square. lra. }
  rewrite L in E. exact E.
Qed.
