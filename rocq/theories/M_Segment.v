(** Line segments of the geometry package (common/math/geometry, polygon/line_segment.cpp and
    intersection/intersection.cpp). Coordinates are real numbers: rounding, NaN and infinities of
    [double] are left out, except that a division by zero is told apart. *)
From Coq Require Import Reals List ZArith Bool.
Import ListNotations.
Open Scope R_scope.

(** geometry_msgs/msg/Point *)
Record Point := point { x : R; y : R; z : R }.

(** polygon/line_segment.cpp:30-45: the constructor keeps both points; the vector and the lengths
    below are its other fields. *)
Record Segment := segment { start_point : Point; end_point : Point }.

(** What a function with [std::optional] and exceptions hands back. *)
Inductive Answer (A : Type) := Found (a : A) | Absent | Error.
Arguments Found {A} a.
Arguments Absent {A}.
Arguments Error {A}.

(** [std::numeric_limits<double>::epsilon()] *)
Definition epsilon : R := / 2 ^ 52.

(** [a <= b] and [a < b] as tests *)
Definition le (a b : R) : bool := if Rle_dec a b then true else false.
Definition lt (a b : R) : bool := if Rlt_dec a b then true else false.

(** polygon/line_segment.cpp:34-41: [vector], whose first two coordinates are [vector_2d] *)
Definition vector_x (l : Segment) : R := x (end_point l) - x (start_point l).
Definition vector_y (l : Segment) : R := y (end_point l) - y (start_point l).
Definition vector_z (l : Segment) : R := z (end_point l) - z (start_point l).

(** polygon/line_segment.cpp:42-43 *)
Definition length (l : Segment) : R :=
  sqrt (vector_x l * vector_x l + vector_y l * vector_y l + vector_z l * vector_z l).
Definition length_2d (l : Segment) : R :=
  sqrt (vector_x l * vector_x l + vector_y l * vector_y l).

(** polygon/line_segment.cpp:73-97. A division by the length zero gives an infinity or NaN, which
    is in no range. *)
Definition get_point (l : Segment) (s : R) (denormalize_s : bool) : Answer Point :=
  if denormalize_s && (if Req_EM_T (length l) 0 then true else false) then Error
  else
    let s_normalized := if denormalize_s then s / length l else s in
    if le 0 s_normalized && le s_normalized 1 then
      Found (point (x (start_point l) + vector_x l * s_normalized)
                   (y (start_point l) + vector_y l * s_normalized)
                   (z (start_point l) + vector_z l * s_normalized))
    else Error.

(** polygon/line_segment.cpp:338-345 *)
Definition is_in_bounds (l : Segment) (p : Point) : bool :=
  le (Rmin (x (start_point l)) (x (end_point l))) (x p)
  && le (x p) (Rmax (x (start_point l)) (x (end_point l)))
  && le (Rmin (y (start_point l)) (y (end_point l))) (y p)
  && le (y p) (Rmax (y (start_point l)) (y (end_point l))).

(** polygon/line_segment.cpp:361-367 *)
Definition relative_point_position (l : Segment) (p : Point) : Z :=
  let determinant :=
    vector_y l * (x p - x (end_point l)) - vector_x l * (y p - y (end_point l)) in
  ((if lt epsilon determinant then 1 else 0) - (if lt determinant (- epsilon) then 1 else 0))%Z.

(** intersection/intersection.cpp:24-45 *)
Definition is_intersect (line0 line1 : Segment) : bool :=
  let p0 := start_point line0 in
  let q0 := end_point line0 in
  let p1 := start_point line1 in
  let q1 := end_point line1 in
  let relative_position_p0 := relative_point_position line1 p0 in
  let relative_position_q0 := relative_point_position line1 q0 in
  let relative_position_p1 := relative_point_position line0 p1 in
  let relative_position_q1 := relative_point_position line0 q1 in
  if (Z.eqb relative_position_p1 0 && Z.eqb relative_position_q1 0
      && Z.eqb relative_position_p0 0 && Z.eqb relative_position_q0 0)%bool
  then is_in_bounds line0 p1 || is_in_bounds line0 q1
       || is_in_bounds line1 p0 || is_in_bounds line1 q0
  else negb (Z.eqb relative_position_p1 relative_position_q1)
       && negb (Z.eqb relative_position_p0 relative_position_q0).

(** intersection/intersection.cpp:59-91 *)
Definition get_intersection (line0 line1 : Segment) : Answer Point :=
  if negb (is_intersect line0 line1) then Absent
  else
    let a0 := vector_y line0 in
    let b0 := - vector_x line0 in
    let c0 := a0 * x (start_point line0) + b0 * y (start_point line0) in
    let a1 := vector_y line1 in
    let b1 := - vector_x line1 in
    let c1 := a1 * x (start_point line1) + b1 * y (start_point line1) in
    let determinant := a0 * b1 - a1 * b0 in
    if le (Rabs determinant) epsilon then Error
    else Found (point ((b1 * c0 - b0 * c1) / determinant)
                      ((a0 * c1 - a1 * c0) / determinant) 0).

(** polygon/line_segment.cpp:125-135 *)
Definition is_intersect_point (l : Segment) (p : Point) : bool :=
  if is_in_bounds l p then
    let cross_product :=
      (y p - y (start_point l)) * vector_x l - (x p - x (start_point l)) * vector_y l in
    le (Rabs cross_product) (length_2d l * epsilon)
  else false.

(** polygon/line_segment.cpp:168-184. A division by zero cannot be told from a value here, so it is
    an error of the model; the theorems show that it is never reached from [s_value]. *)
Definition s_value_of_point (l : Segment) (p : Point) (denormalize_s : bool) : Answer R :=
  if is_intersect_point l p then
    if Req_EM_T (length_2d l) 0 then Error
    else
      let proportion_2d :=
        sqrt ((x p - x (start_point l)) * (x p - x (start_point l))
              + (y p - y (start_point l)) * (y p - y (start_point l))) / length_2d l in
      Found (if denormalize_s then proportion_2d * length l else proportion_2d)
  else Absent.

(** polygon/line_segment.cpp:192-200 *)
Definition s_value (l line : Segment) (denormalize_s : bool) : Answer R :=
  match get_intersection l line with
  | Found p => s_value_of_point l p denormalize_s
  | Absent => Absent
  | Error => Error
  end.

(** geometry_msgs: [operator==] of points compares all three coordinates *)
Definition same (p q : Point) : bool :=
  if Req_EM_T (x p) (x q) then
    if Req_EM_T (y p) (y q) then
      if Req_EM_T (z p) (z q) then true else false
    else false
  else false.

(** polygon/line_segment.cpp:308-329: the loop over neighbours *)
Fixpoint chain (points : list Point) : list Segment :=
  match points with
  | p :: ((q :: _) as rest) => if same p q then chain rest else segment p q :: chain rest
  | _ => []
  end.

(** polygon/line_segment.cpp:308-329 *)
Definition get_line_segments (points : list Point) (close_start_end : bool) : list Segment :=
  match points with
  | [] | [_] => []
  | first :: _ =>
      chain points
      ++ (if close_start_end then
            if same (last points first) first then [] else [segment (last points first) first]
          else [])
  end.
