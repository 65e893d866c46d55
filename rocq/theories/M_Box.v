(** Bounding boxes: common/math/geometry/src/bounding_box.cpp, of common/math/geometry/src/transform.cpp
    the functions [transformPoint] and [getRelativePose], and [boundingBoxRelativePose] of
    simulation/traffic_simulator/src/utils/pose.cpp. Numbers are exact reals; rounding is not modelled. *)
From Coq Require Import List Reals Lra.
From Verif Require Import M_Ego.
Import ListNotations.
Local Open Scope R_scope.

(** bounding_box.hpp:35: [boost_point], a point of the plane *)
Record Point2 : Set := point2 { px : R; py : R }.
(** boost's [subtract_point], [add_point], [multiply_value] and [dot_product] *)
Definition sub2 (a b : Point2) : Point2 := point2 (px a - px b) (py a - py b).
Definition add2 (a b : Point2) : Point2 := point2 (px a + px b) (py a + py b).
Definition scale2 (a : Point2) (k : R) : Point2 := point2 (px a * k) (py a * k).
Definition dot2 (a b : Point2) : R := px a * px b + py a * py b.
(** [boost::geometry::distance] of two points *)
Definition distance2 (a b : Point2) : R := sqrt (dot2 (sub2 a b) (sub2 a b)).

(** geometry_msgs/msg/Pose *)
Record Pose : Set := pose { at_ : Vec; qx : R; qy : R; qz : R; qw : R }.
(** traffic_simulator_msgs/msg/BoundingBox: [center] and [dimensions] *)
Record BBox : Set := bbox { center : Vec; dimensions : Vec }.

(** lines 101-120 *)
Definition projection (p p1 p2 : Point2) : Point2 :=
  let v := sub2 p2 p1 in
  let w := sub2 p p1 in
  let c1 := dot2 w v in
  if Rle_dec c1 0 then p1
  else let c2 := dot2 v v in
       if Rle_dec c2 c1 then p2 else add2 p1 (scale2 v (c1 / c2)).

(** lines 251-263 *)
Definition front (b : BBox) : R := vec_x (center b) + vec_x (dimensions b) * (1 / 2).
Definition rear (b : BBox) : R := vec_x (center b) - vec_x (dimensions b) * (1 / 2).
Definition left (b : BBox) : R := vec_y (center b) + vec_y (dimensions b) * (1 / 2).
Definition right (b : BBox) : R := vec_y (center b) - vec_y (dimensions b) * (1 / 2).
Definition up (b : BBox) : R := vec_z (center b) + vec_z (dimensions b) * (1 / 2).

(** lines 129-157; the extensions to the right, to the left, to the front and to the rear *)
Definition corners (b : BBox) (er el ef eb : R) : list Vec :=
  [ vec (front b + ef) (left b + el) (up b);
    vec (rear b - eb) (left b + el) (up b);
    vec (rear b - eb) (right b - er) (up b);
    vec (front b + ef) (right b - er) (up b) ].

(** transform.cpp:64-83 *)
Definition transform_point (p : Pose) (v : Vec) : Vec :=
  vec_add (times (rotation_matrix (qx p) (qy p) (qz p) (qw p)) v) (at_ p).

(** lines 214-217 *)
Definition flatten (v : Vec) : Point2 := point2 (vec_x v) (vec_y v).

(** lines 219-228 (simplification: fewer than four points, undefined in the code, never occur: the
    only lists given to it come from [corners]) *)
Definition closed (points : list Vec) : list Point2 :=
  match points with
  | a :: b :: c :: d :: _ => [flatten a; flatten b; flatten c; flatten d; flatten a]
  | _ => []
  end.

(** lines 122-127 *)
Definition polygon (p : Pose) (b : BBox) : list Point2 :=
  closed (map (transform_point p) (corners b 0 0 0 0)).

(** boost's [segments_begin] and [segments_end] of a closed ring *)
Fixpoint segments (ring : list Point2) : list (Point2 * Point2) :=
  match ring with
  | a :: ((b :: _) as rest) => (a, b) :: segments rest
  | _ => []
  end.

(** The locals [point0], [point1] and [min_distance] of lines 66-68; [None] is the largest number *)
Record Best : Set := best { point_0 : Point2; point_1 : Point2; least : option R }.

(** line 75 *)
Definition less (d : R) (m : option R) : bool :=
  match m with None => true | Some x => if Rlt_dec d x then true else false end.

(** lines 71-80, for one point *)
Definition try_point (segment : Point2 * Point2) (m : Best) (point : Point2) : Best :=
  let nearest := projection point (fst segment) (snd segment) in
  let d := distance2 point nearest in
  if less d (least m) then best point nearest (Some d) else m.

(** lines 70-81 *)
Definition nearest_to_segment (segment : Point2 * Point2) (points : list Point2) (m : Best) : Best :=
  fold_left (try_point segment) points m.

(** lines 83-91 *)
Definition nearest_in_polygon (ring0 ring1 : list Point2) (m : Best) : Best :=
  fold_left (fun m segment => nearest_to_segment segment ring1 m) (segments ring0) m.

(** lines 58-99. [disjoint] is [boost::geometry::disjoint]; the theorems say what they ask of it. *)
Definition closest_poses (disjoint : list Point2 -> list Point2 -> bool)
  (pose0 : Pose) (box0 : BBox) (pose1 : Pose) (box1 : BBox) : option (Point2 * Point2) :=
  let poly0 := polygon pose0 box0 in
  let poly1 := polygon pose1 box1 in
  if disjoint poly0 poly1 then
    let none := best (point2 0 0) (point2 0 0) None in
    let m := nearest_in_polygon poly1 poly0 (nearest_in_polygon poly0 poly1 none) in
    Some (point_0 m, point_1 m)
  else None.

(** lines 230-237 *)
Definition to_pose (p : Point2) : Vec := vec (px p) (py p) 0.

(** transform.cpp:26-62, the position: that of [from]'s inverse times [to] (simplification: tf2 divides
    by the squared length of the quaternion, which is one for an orientation) *)
Definition relative_position (from : Pose) (to : Vec) : Vec :=
  times (transpose (rotation_matrix (qx from) (qy from) (qz from) (qw from))) (vec_sub to (at_ from)).

(** lines 239-249 *)
Definition subtract_poses (a b : Vec) : Vec := to_pose (sub2 (flatten a) (flatten b)).

(** utils/pose.cpp:263-281, the position of the result *)
Definition relative_pose (disjoint : list Point2 -> list Point2 -> bool)
  (from : Pose) (from_box : BBox) (to : Pose) (to_box : BBox) : option Vec :=
  match closest_poses disjoint from from_box to to_box with
  | Some (first, second) =>
      let from_pose := relative_position from (to_pose first) in
      let to_pose_ := relative_position from (to_pose second) in
      Some (subtract_poses from_pose to_pose_)
  | None => None
  end.

(** lines 265-282: the locals [closest_point] and [min_distance] *)
Definition closest_step (query : Point2) (m : Point2 * option R) (edge : Point2 * Point2)
  : Point2 * option R :=
  let projected := projection query (fst edge) (snd edge) in
  let d := distance2 query projected in
  if less d (snd m) then (projected, Some d) else m.
(** the pairs of vertices that line 273 visits: each vertex with the next, the last with the first *)
Definition edges (vertices : list Point2) : list (Point2 * Point2) :=
  match vertices with
  | [] => []
  | a :: _ => combine vertices (tl vertices ++ [a])
  end.
Definition closest_point (query : Point2) (vertices : list Point2) : Point2 :=
  fst (fold_left (closest_step query) (edges vertices) (point2 0 0, None)).
