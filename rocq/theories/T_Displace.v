(** C219: the fourth noise model, what it does to poses. *)
From Coq Require Import Reals Lra List.
From Verif Require Import M_Ego M_Box S_Box P_Box T_Box M_Quaternion S_Quaternion P_Quaternion M_Displace S_Displace.
Import ListNotations.
Local Open Scope R_scope.

Ltac open := unfold rotate, times, rotation_matrix, vec_add, vec_sub; cbn -[Rdiv].

Lemma transform_rotate v q w : transform_point (pose_of v q) w = vec_add (rotate q w) v.
Proof. reflexivity. Qed.
Lemma compose a b v : rotate (mul a b) v = rotate a (rotate b v).
Proof. apply vec_eq; open; ring. Qed.
Lemma vertical angle v : rotate (about_vertical angle) v =
  vec (cos angle * vec_x v - sin angle * vec_y v) (sin angle * vec_x v + cos angle * vec_y v) (vec_z v).
Proof.
  pose proof (half_cos angle) as C. pose proof (half_sin angle) as S. pose proof (half_one angle) as O.
  unfold about_vertical.
  set (s := sin (angle * (1 / 2))) in *. set (c := cos (angle * (1 / 2))) in *.
  rewrite <- C, <- S. apply vec_eq; open; try ring.
  replace (0 * 0 * 2) with 0 by ring. transitivity (vec_z v * (s * s + c * c)); [ring | rewrite O; ring].
Qed.
Lemma rotate_add q u v : rotate q (vec_add u v) = vec_add (rotate q u) (rotate q v).
Proof. apply vec_eq; open; ring. Qed.
Lemma half_turn_flip v : rotate (about_vertical PI) v = vec (- vec_x v) (- vec_y v) (vec_z v).
Proof. rewrite vertical, cos_PI, sin_PI. apply vec_eq; cbn; ring. Qed.

(** Where the points of an entity are after it is flipped: as if it were turned about its middle. *)
Lemma flip_point b p v : transform_point (flip b p) v =
  transform_point p (opposite b v).
Proof.
  unfold flip, opposite. rewrite !transform_rotate, !compose, !half_turn_flip.
  unfold transform_point, vec_opp. apply vec_eq; open; ring.
Qed.

(** A flip leaves the middle and the outline of the entity where they are; it faces the other way. *)
Theorem C219_flip b p :
  transform_point (flip b p) (center b) = transform_point p (center b) /\
  (forall q, covers (flip b p) b q <-> covers p b q) /\
  (forall q, outline (flip b p) b q <-> outline p b q) /\
  (forall k, rotate (quat_of (flip b p)) (ahead k) = rotate (quat_of p) (ahead (- k))).
Proof.
  assert (forall x y, seen (flip b p) b x y = seen p b (- x) (- y)) as F.
  { intros x y. unfold seen.
    pose proof (flip_point b p (vec (vec_x (center b) + x) (vec_y (center b) + y)
                                    (vec_z (center b) + vec_z (dimensions b) / 2))) as E.
    unfold transform_point, opposite in E. cbn [vec_x vec_y vec_z] in E.
    replace (2 * vec_x (center b) - (vec_x (center b) + x)) with (vec_x (center b) + - x) in E by ring.
    replace (2 * vec_y (center b) - (vec_y (center b) + y)) with (vec_y (center b) + - y) in E by ring.
    apply point2_eq; [apply (f_equal vec_x) in E | apply (f_equal vec_y) in E];
      unfold vec_add in *; cbn -[times Rdiv] in *; lra. }
  assert (forall x y, inside b x y -> inside b (- x) (- y)) as I.
  { intros x y H. unfold inside in *. rewrite !Rabs_Ropp. exact H. }
  split; [| split; [| split]].
  - rewrite flip_point. f_equal. apply vec_eq; cbn; ring.
  - intros q. split; intros (x & y & H & ->); exists (- x), (- y); (split; [apply I, H |]); rewrite F;
      [reflexivity | f_equal; ring].
  - intros q. split; intros (x & y & H & C & ->); exists (- x), (- y); (split; [apply I, H |]);
      rewrite F, !Rabs_Ropp; (split; [exact C |]); [reflexivity | f_equal; ring].
  - intros k. change (quat_of (flip b p)) with (mul (quat_of p) (about_vertical PI)).
    rewrite compose, half_turn_flip. unfold ahead. cbn. f_equal. f_equal; ring.
Qed.

Lemma level_commute p v angle : level p ->
  rotate (quat_of p) (rotate (about_vertical angle) v) = rotate (about_vertical angle) (rotate (quat_of p) v).
Proof.
  intros (_ & X & Y). rewrite !vertical. unfold quat_of. rewrite X, Y. apply vec_eq; open; ring.
Qed.

Lemma seen_lies p b x y : seen p b x y =
  lies p (vec (vec_x (center b) + x) (vec_y (center b) + y) (vec_z (center b) + vec_z (dimensions b) / 2)).
Proof. unfold seen, lies, transform_point, flatten. apply point2_eq; unfold vec_add; cbn -[times Rdiv]; ring. Qed.

(** On level ground: the point of the outline that is nearest to the ego vehicle is moved away from it
    by one of the numbers drawn and to the right by another, the whole entity with it, turned about that
    point by the third; and it is flipped if that is drawn. Nothing happens within a micrometre. *)
Theorem C219_displaced ego b d p : solid p b -> level p ->
  exists base, outline p b base /\ (forall u, outline p b u -> apart ego base <= apart ego u) /\
  (apart ego base < / 1000000 -> displaced ego b d p = p) /\
  (/ 1000000 <= apart ego base ->
   exists u, px u * px u + py u * py u = 1 /\
     base = seen_from ego u (apart ego base) 0 /\
     forall v, lies (displaced ego b d p) v =
       moved base (seen_from ego u (apart ego base + y_noise d) (x_noise d))
         (turned_about base (yaw_noise d) (lies p (if flipped d then opposite b v else v)))).
Proof.
  intros S L. exists (noise_base ego p b).
  destruct (C157_outline p b ego S) as (O & N & _). split; [exact O |]. split; [exact N |].
  unfold displaced. set (base := noise_base ego p b).
  assert (hypot (px base - px ego) (py base - py ego) = apart ego base) as H
    by (unfold hypot, apart; f_equal; ring).
  rewrite H. set (r := apart ego base) in *.
  split; intros T; destruct (Rlt_dec r (/ 1000000)) as [C | C]; try lra; [reflexivity |].
  assert (0 < / 1000000) as P by (apply Rinv_0_lt_compat; lra).
  assert (r <> 0) as Z by lra.
  assert (r * r = (px base - px ego) * (px base - px ego) + (py base - py ego) * (py base - py ego)) as Q
    by (rewrite <- H; apply hypot_square).
  exists (point2 ((px base - px ego) / r) ((py base - py ego) / r)).
  split; [| split].
  - cbn -[Rdiv]. replace ((px base - px ego) / r * ((px base - px ego) / r) + (py base - py ego) / r * ((py base - py ego) / r))
      with (((px base - px ego) * (px base - px ego) + (py base - py ego) * (py base - py ego)) / (r * r)) by (field; exact Z).
    rewrite <- Q. field. exact Z.
  - apply point2_eq; cbn -[Rdiv]; field; exact Z.
  - assert (forall v x y z, lies (pose_of (vec x y z) (mul (quat_of p) (about_vertical (yaw_noise d)))) v =
              point2 (vec_x (rotate (about_vertical (yaw_noise d)) (rotate (quat_of p) v)) + x)
                     (vec_y (rotate (about_vertical (yaw_noise d)) (rotate (quat_of p) v)) + y)) as W.
    { intros v x y z. unfold lies. rewrite transform_rotate, compose, level_commute by exact L. reflexivity. }
    assert (forall v, lies p v = point2 (vec_x (rotate (quat_of p) v) + vec_x (M_Box.at_ p))
                                        (vec_y (rotate (quat_of p) v) + vec_y (M_Box.at_ p))) as W'
      by (intros v; reflexivity).
    intros v. destruct (flipped d).
    + unfold lies at 1. rewrite flip_point.
      match goal with |- flatten (transform_point ?a ?b) = _ => change (flatten (transform_point a b)) with (lies a b) end.
      rewrite W, W', !vertical. apply point2_eq; cbn -[Rdiv rotate]; field; exact Z.
    + rewrite W, W', !vertical. apply point2_eq; cbn -[Rdiv rotate]; field; exact Z.
Qed.

(** Without noise nothing changes, and the height never does unless the entity is flipped. *)
Theorem C219_none ego b p : displaced ego b (drawn 0 0 0 false) p = p.
Proof.
  unfold displaced. destruct (Rlt_dec _ _); [reflexivity |]. cbn [flipped x_noise y_noise yaw_noise].
  rewrite vertical, cos_0, sin_0. unfold about_vertical. replace (0 * (1 / 2)) with 0 by ring. rewrite sin_0, cos_0.
  destruct p as [[x y z] a b0 c d]. unfold pose_of, quat_of, mul, vec_add, vec_sub.
  cbn -[Rdiv noise_base]. f_equal; try ring. f_equal; ring.
Qed.
Theorem C219_height ego b x y yaw p : vec_z (at_ (displaced ego b (drawn x y yaw false) p)) = vec_z (at_ p).
Proof. unfold displaced. destruct (Rlt_dec _ _); reflexivity. Qed.

(** On a slope the entity is not turned as a whole about any point, although only a turn is drawn. *)
Definition slope_pose : Pose := pose (vec 100 0 0) 0 (3 / 5) 0 (4 / 5).
Definition slope_box : BBox := bbox (vec 0 0 0) (vec 2 2 2).
Theorem C219_slope_refuted : exists ego b d p, solid p b /\ x_noise d = 0 /\ y_noise d = 0 /\ flipped d = false /\
  ~ exists base, forall v, lies (displaced ego b d p) v = turned_about base (yaw_noise d) (lies p v).
Proof.
  assert (solid slope_pose slope_box) as S.
  { unfold solid, upright, orientation. cbn -[Rdiv]. repeat split; lra. }
  exists (point2 0 0), slope_box, (drawn 0 0 PI false), slope_pose.
  split; [exact S |]. repeat (split; [reflexivity |]). intros (base & H).
  unfold displaced in H. set (nb := noise_base (point2 0 0) slope_pose slope_box) in *.
  assert (50 < px nb) as F.
  { destruct (C157_outline slope_pose slope_box (point2 0 0) S) as ((x & y & (I & _) & _ & E) & _).
    unfold nb, noise_base. rewrite E. cbn -[Rdiv] in I |- *. apply Rabs_bound in I. lra. }
  destruct (Rlt_dec _ _) as [C | C].
  - pose proof (hypot_square (px nb - px (point2 0 0)) (py nb - py (point2 0 0))) as Q.
    pose proof (hypot_nonneg (px nb - px (point2 0 0)) (py nb - py (point2 0 0))) as P.
    set (h := hypot (px nb - px (point2 0 0)) (py nb - py (point2 0 0))) in *. cbn in Q.
    assert (/ 1000000 < 1) by lra.
    assert (h * h <= 1 * 1) by (apply Rmult_le_compat; lra).
    assert (50 * 50 < px nb * px nb) by (apply Rmult_le_0_lt_compat; lra).
    pose proof (square_nonneg (py nb - 0)). lra.
  - cbn [flipped yaw_noise] in H. 
    pose proof (f_equal px (H (vec 0 0 0))) as A. pose proof (f_equal px (H (vec 0 0 1))) as B.
    unfold lies in A, B. rewrite !transform_rotate, !compose, !half_turn_flip in A, B.
    unfold turned_about in A, B. rewrite cos_PI, sin_PI in A, B.
    unfold rotate, times, rotation_matrix, transform_point, quat_of, slope_pose, vec_add in A, B. cbn -[Rdiv] in A, B. lra.
Qed.

Example C219_case : solid (pose (vec 10 0 0) 0 0 0 1) slope_box /\ level (pose (vec 10 0 0) 0 0 0 1).
Proof. unfold solid, upright, level, orientation. cbn -[Rdiv]. repeat split; lra. Qed.
