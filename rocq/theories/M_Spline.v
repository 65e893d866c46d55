(** Hermite curves and Catmull-Rom splines of the geometry package
    (common/math/geometry/src/spline/hermite_curve.cpp, catmull_rom_spline.cpp and
    catmull_rom_subspline.cpp). Numbers are real, rounding is left out; a division by zero is told
    apart. A [std::set<double>] is a list here, of which only the members matter. *)
From Coq Require Import Reals List ZArith Bool.
From Verif Require Import M_Segment M_Solver.
Import ListNotations.
Open Scope R_scope.

(** hermite_curve.cpp:31-48: three polynomials; the length is [curve_length] below. *)
Record Curve := curve {
  ax : R; bx : R; cx : R; dx : R;
  ay : R; by_ : R; cy : R; dy : R;
  az : R; bz : R; cz : R; dz : R }.

(** hermite_curve.cpp:50-67 *)
Definition hermite (start goal start_vec goal_vec : Point) : Curve :=
  curve
    (2 * x start - 2 * x goal + x start_vec + x goal_vec)
    (-3 * x start + 3 * x goal - 2 * x start_vec - x goal_vec) (x start_vec) (x start)
    (2 * y start - 2 * y goal + y start_vec + y goal_vec)
    (-3 * y start + 3 * y goal - 2 * y start_vec - y goal_vec) (y start_vec) (y start)
    (2 * z start - 2 * z goal + z start_vec + z goal_vec)
    (-3 * z start + 3 * z goal - 2 * z start_vec - z goal_vec) (z start_vec) (z start).

(** hermite_curve.cpp:362-379 with [denormalize_s = false] *)
Definition curve_point (c : Curve) (s : R) : Point :=
  let s2 := s * s in
  let s3 := s2 * s in
  point (ax c * s3 + bx c * s2 + cx c * s + dx c)
        (ay c * s3 + by_ c * s2 + cy c * s + dy c)
        (az c * s3 + bz c * s2 + cz c * s + dz c).

(** hermite_curve.cpp:265-275 with [denormalize_s = false] *)
Definition curve_tangent (c : Curve) (s : R) : Point :=
  point (3 * ax c * s * s + 2 * bx c * s + cx c)
        (3 * ay c * s * s + 2 * by_ c * s + cy c)
        (3 * az c * s * s + 2 * bz c * s + cz c).

(** hermite_curve.cpp:344-360: one term of the loop *)
Definition length_term (c : Curve) (s : R) : R :=
  let x_diff := (3 * s * s) * ax c + 2 * s * bx c + cx c in
  let y_diff := (3 * s * s) * ay c + 2 * s * by_ c + cy c in
  let z_diff := (3 * s * s) * az c + 2 * s * bz c + cz c in
  sqrt (x_diff * x_diff + y_diff * y_diff + z_diff * z_diff).

(** hermite_curve.cpp:344-360: the sum of the terms 0 to [i - 1] *)
Fixpoint length_sum (c : Curve) (delta_s : R) (i : nat) : R :=
  match i with
  | O => 0
  | S j => length_sum c delta_s j + length_term c (INR j * delta_s) * delta_s
  end.

(** hermite_curve.cpp:31-67: [length_(getLength(100))] *)
Definition curve_length (c : Curve) : R := length_sum c (1 / 100) 100.

(** hermite_curve.cpp:362-379 with [denormalize_s = true]; [None] stands for a division by zero,
    which makes all coordinates NaN or infinite. *)
Definition curve_point_at (c : Curve) (s : R) : option Point :=
  if Req_EM_T (curve_length c) 0 then None else Some (curve_point c (s / curve_length c)).

(** hermite_curve.cpp:265-275 with [denormalize_s = true] *)
Definition curve_tangent_at (c : Curve) (s : R) : option Point :=
  if Req_EM_T (curve_length c) 0 then None else Some (curve_tangent c (s / curve_length c)).

(** hermite_curve.cpp:161-164: a quotient; a division by zero gives an infinity or NaN. *)
Definition quotient (a b : R) : option R := if Req_EM_T b 0 then None else Some (a / b).

(** [0 <= t && t <= 1], false for NaN and infinities *)
Definition in_unit (t : option R) : bool :=
  match t with Some v => le 0 v && le v 1 | None => false end.

(** hermite_curve.cpp:165-178. When both quotients are infinite their difference may be NaN and the
    second branch is taken; neither branch accepts then. *)
Definition accepted (tx ty : option R) : bool :=
  match tx, ty with
  | Some u, Some v =>
      if lt epsilon (Rabs (u - v)) then in_unit tx || in_unit ty else in_unit tx && in_unit ty
  | _, _ => in_unit tx || in_unit ty
  end.

(** hermite_curve.cpp:123-181 with [denormalize_s = false]; [None] is the solver's exception. *)
Definition curve_collisions (c : Curve) (point0 point1 : Point) (search_backward : bool)
  : option (list R) :=
  let fx := x point0 in
  let ex := x point1 - x point0 in
  let fy := y point0 in
  let ey := y point1 - y point0 in
  let a := ay c * ex - ax c * ey in
  let b := by_ c * ex - bx c * ey in
  let cc := cy c * ex - cx c * ey in
  let d := dy c * ex - dx c * ey - ex * fy + ey * fx in
  let solutions :=
    if approximately a 0 && approximately b 0 && approximately cc 0 && approximately d 0
    then Some [if search_backward then 1 else 0]
    else solve_cubic a b cc d 0 1 in
  match solutions with
  | None => None
  | Some values =>
      Some (filter (fun solution =>
                      accepted
                        (quotient (cubic (ax c) (bx c) (cx c) (dx c) solution - x point0)
                                  (x point1 - x point0))
                        (quotient (cubic (ay c) (by_ c) (cy c) (dy c) solution - y point0)
                                  (y point1 - y point0)))
                   values)
  end.

(** [merge] of sets, when both are there *)
Definition both (u v : option (list R)) : option (list R) :=
  match u, v with Some a, Some b => Some (a ++ b) | _, _ => None end.

(** hermite_curve.cpp:95-99: the edges between neighbours *)
Fixpoint edge_collisions (c : Curve) (polygon : list Point) (search_backward : bool)
  : option (list R) :=
  match polygon with
  | p :: ((q :: _) as rest) =>
      both (curve_collisions c p q search_backward) (edge_collisions c rest search_backward)
  | _ => Some []
  end.

(** hermite_curve.cpp:87-107 with [close_start_end = true] and [denormalize_s = false] *)
Definition polygon_collisions (c : Curve) (polygon : list Point) (search_backward : bool)
  : option (list R) :=
  match polygon with
  | [] | [_] => Some []
  | first :: _ =>
      both (edge_collisions c polygon search_backward)
           (curve_collisions c (last polygon first) first search_backward)
  end.

(** *** Catmull-Rom splines *)

(** catmull_rom_spline.cpp:188-192: [std::unique] removes equal neighbours. *)
Fixpoint unique (points : list Point) : list Point :=
  match points with
  | p :: ((q :: _) as rest) => if same p q then unique rest else p :: unique rest
  | _ => points
  end.

(** One coordinate of the first curve (catmull_rom_spline.cpp:215-240); the curve's coefficients
    are halved at the end. *)
Definition first_a (p0 p1 p2 : R) : R := 0 * (1 / 2).
Definition first_b (p0 p1 p2 : R) : R := (p0 - 2 * p1 + p2) * (1 / 2).
Definition first_c (p0 p1 p2 : R) : R := (-3 * p0 + 4 * p1 - p2) * (1 / 2).
Definition first_d (p0 p1 p2 : R) : R := (2 * p0) * (1 / 2).

(** The last curve, from [p1] to [p2] (catmull_rom_spline.cpp:241-266) *)
Definition last_a (p0 p1 p2 : R) : R := 0 * (1 / 2).
Definition last_b (p0 p1 p2 : R) : R := (p0 - 2 * p1 + p2) * (1 / 2).
Definition last_c (p0 p1 p2 : R) : R := (-1 * p0 + p2) * (1 / 2).
Definition last_d (p0 p1 p2 : R) : R := (2 * p1) * (1 / 2).

(** The curves between, from [p1] to [p2] (catmull_rom_spline.cpp:267-299) *)
Definition middle_a (p0 p1 p2 p3 : R) : R := (-1 * p0 + 3 * p1 - 3 * p2 + p3) * (1 / 2).
Definition middle_b (p0 p1 p2 p3 : R) : R := (2 * p0 - 5 * p1 + 4 * p2 - p3) * (1 / 2).
Definition middle_c (p0 p1 p2 p3 : R) : R := (- p0 + p2) * (1 / 2).
Definition middle_d (p0 p1 p2 p3 : R) : R := (2 * p1) * (1 / 2).

Definition first_curve (p q r : Point) : Curve :=
  curve (first_a (x p) (x q) (x r)) (first_b (x p) (x q) (x r))
        (first_c (x p) (x q) (x r)) (first_d (x p) (x q) (x r))
        (first_a (y p) (y q) (y r)) (first_b (y p) (y q) (y r))
        (first_c (y p) (y q) (y r)) (first_d (y p) (y q) (y r))
        (first_a (z p) (z q) (z r)) (first_b (z p) (z q) (z r))
        (first_c (z p) (z q) (z r)) (first_d (z p) (z q) (z r)).

Definition last_curve (p q r : Point) : Curve :=
  curve (last_a (x p) (x q) (x r)) (last_b (x p) (x q) (x r))
        (last_c (x p) (x q) (x r)) (last_d (x p) (x q) (x r))
        (last_a (y p) (y q) (y r)) (last_b (y p) (y q) (y r))
        (last_c (y p) (y q) (y r)) (last_d (y p) (y q) (y r))
        (last_a (z p) (z q) (z r)) (last_b (z p) (z q) (z r))
        (last_c (z p) (z q) (z r)) (last_d (z p) (z q) (z r)).

Definition middle_curve (p q r s : Point) : Curve :=
  curve (middle_a (x p) (x q) (x r) (x s)) (middle_b (x p) (x q) (x r) (x s))
        (middle_c (x p) (x q) (x r) (x s)) (middle_d (x p) (x q) (x r) (x s))
        (middle_a (y p) (y q) (y r) (y s)) (middle_b (y p) (y q) (y r) (y s))
        (middle_c (y p) (y q) (y r) (y s)) (middle_d (y p) (y q) (y r) (y s))
        (middle_a (z p) (z q) (z r) (z s)) (middle_b (z p) (z q) (z r) (z s))
        (middle_c (z p) (z q) (z r) (z s)) (middle_d (z p) (z q) (z r) (z s)).

(** catmull_rom_spline.cpp:212-300: the iterations from the second on; [p], [q] and [r] are the
    control points [i - 1], [i] and [i + 1], [rest] those after. *)
Fixpoint later_curves (p q r : Point) (rest : list Point) : list Curve :=
  match rest with
  | [] => [last_curve p q r]
  | s :: rest' => middle_curve p q r s :: later_curves q r s rest'
  end.

(** catmull_rom_spline.cpp:212-300 *)
Definition curves_of (control_points : list Point) : list Curve :=
  match control_points with
  | p :: q :: r :: rest => first_curve p q r :: later_curves p q r rest
  | _ => []
  end.

(** catmull_rom_spline.cpp:301-307 *)
Fixpoint sum (lengths : list R) : R :=
  match lengths with [] => 0 | l :: rest => l + sum rest end.

(** A spline: its control points without doubled neighbours. *)
Inductive Spline :=
| Dot (p : Point)
| Line (l : Segment)
| Bend (control_points : list Point) (curves : list Curve).

(** catmull_rom_spline.cpp:824-838: [equals], with the epsilon of [float] *)
Definition float_epsilon : R := / 2 ^ 23.
Definition equals (p q : Point) : bool :=
  le (Rabs (x p - x q)) float_epsilon && le (Rabs (y p - y q)) float_epsilon
  && le (Rabs (z p - z q)) float_epsilon.

(** catmull_rom_spline.cpp:797-822: false stands for the exceptions. *)
Fixpoint check_connection (control_points : list Point) (curves : list Curve) : bool :=
  match control_points, curves with
  | [_], [] => true
  | p :: ((q :: _) as points), c :: rest =>
      equals p (curve_point c 0) && equals q (curve_point c 1) && check_connection points rest
  | _, _ => false
  end.

(** catmull_rom_spline.cpp:186-312; [None] is an exception. *)
Definition spline (raw_control_points : list Point) : option Spline :=
  match unique raw_control_points with
  | [] => None
  | [p] => Some (Dot p)
  | [p; q] => Some (Line (segment p q))
  | points =>
      if check_connection points (curves_of points) then Some (Bend points (curves_of points))
      else None
  end.

(** catmull_rom_spline.cpp:301-307 and the header's [getLength] *)
Definition spline_length (s : Spline) : R :=
  match s with
  | Dot _ => 0
  | Line l => length l
  | Bend _ curves => sum (map curve_length curves)
  end.

(** catmull_rom_spline.cpp:323-331: the loop; [i] counts the curves, [prev_s] adds up. *)
Fixpoint find_curve (curves : list Curve) (i : nat) (prev_s s : R) : option (nat * R) :=
  match curves with
  | [] => None
  | c :: rest =>
      let current_s := prev_s + curve_length c in
      if le prev_s s && lt s current_s then Some (i, s - prev_s)
      else find_curve rest (S i) current_s s
  end.

(** catmull_rom_spline.cpp:314-332; [None] is the exception. The sum of the lengths is taken from
    the left in the code and from the right here. *)
Definition curve_index_and_s (curves : list Curve) (s : R) : option (nat * R) :=
  let total_length := sum (map curve_length curves) in
  if lt s 0 then Some (0%nat, s)
  else if le total_length s then
         match rev curves with
         | [] => None
         | c :: _ => Some (pred (List.length curves), s - (total_length - curve_length c))
         end
       else find_curve curves 0 0 s.

(** catmull_rom_spline.cpp:606-638; an error is an exception or a value that is no number. *)
Definition spline_point (sp : Spline) (s : R) : option Point :=
  match sp with
  | Dot p => if le (Rabs s) epsilon then Some p else None
  | Line l => match get_point l s true with Found p => Some p | _ => None end
  | Bend _ curves =>
      match curve_index_and_s curves s with
      | None => None
      | Some (index, s_value) =>
          match nth_error curves index with
          | None => None
          | Some c => curve_point_at c s_value
          end
      end
  end.

(** catmull_rom_spline.cpp:721-764 *)
Definition spline_tangent (sp : Spline) (s : R) : option Point :=
  match sp with
  | Dot _ => None
  | Line l => if le 0 s && le s (length l) then Some (point (vector_x l) (vector_y l) (vector_z l))
              else None
  | Bend _ curves =>
      match curve_index_and_s curves s with
      | None => None
      | Some (index, s_value) =>
          match nth_error curves index with
          | None => None
          | Some c => curve_tangent_at c s_value
          end
      end
  end.

(** *** Collisions of splines with polygons *)

(** catmull_rom_spline.cpp:366-379: [is_curve_in_range] *)
Definition curve_in_range (s_range : option (R * R)) (start_s curve_len : R) : bool :=
  match s_range with
  | None => true
  | Some (first, second) =>
      (le first start_s || lt first (start_s + curve_len)) && le start_s second
  end.

(** catmull_rom_spline.cpp:359-394: the loop over the curves *)
Fixpoint bend_collisions (curves : list Curve) (start_s : R) (polygon : list Point)
    (search_backward : bool) (s_range : option (R * R)) : option (list R) :=
  match curves with
  | [] => Some []
  | c :: rest =>
      both (if curve_in_range s_range start_s (curve_length c) then
              match polygon_collisions c polygon search_backward with
              | None => None
              | Some values => Some (map (fun s => start_s + s * curve_length c) values)
              end
            else Some [])
           (bend_collisions rest (start_s + curve_length c) polygon search_backward s_range)
  end.

(** catmull_rom_spline.cpp:396-412: the loop over the polygon's segments, which are not closed *)
Fixpoint line_collisions (l : Segment) (lines : list Segment) : option (list R) :=
  match lines with
  | [] => Some []
  | line :: rest =>
      both (match s_value l line true with
            | Found s => Some [s]
            | Absent => Some []
            | Error => None
            end)
           (line_collisions l rest)
  end.

(** catmull_rom_spline.cpp:414-423 *)
Definition dot_collisions (p : Point) (lines : list Segment) : list R :=
  flat_map (fun line => if is_intersect_point line p then [0] else []) lines.

(** catmull_rom_spline.cpp:349-442; [None] is an exception. *)
Definition spline_collisions (sp : Spline) (polygon : list Point) (search_backward : bool)
    (s_range : option (R * R)) : option (list R) :=
  match polygon with
  | [] | [_] => None
  | _ =>
      match sp with
      | Dot p => Some (dot_collisions p (get_line_segments polygon false))
      | Line l => line_collisions l (get_line_segments polygon false)
      | Bend _ curves => bend_collisions curves 0 polygon search_backward s_range
      end
  end.

(** [*set.begin()] and [*set.rbegin()] *)
Fixpoint least (values : list R) : option R :=
  match values with
  | [] => None
  | v :: rest => match least rest with None => Some v | Some w => Some (Rmin v w) end
  end.
Fixpoint greatest (values : list R) : option R :=
  match values with
  | [] => None
  | v :: rest => match greatest rest with None => Some v | Some w => Some (Rmax v w) end
  end.

(** catmull_rom_spline.cpp:450-462 *)
Definition spline_collision (sp : Spline) (polygon : list Point) (search_backward : bool)
    (s_range : option (R * R)) : Answer R :=
  match spline_collisions sp polygon search_backward s_range with
  | None => Error
  | Some values =>
      match (if search_backward then greatest values else least values) with
      | None => Absent
      | Some s => Found s
      end
  end.

(** catmull_rom_subspline.cpp:64-104. [lower_bound] and [upper_bound] delimit the members between
    the subspline's ends. *)
Definition subspline_collision (sp : Spline) (start_s end_s : R) (polygon : list Point)
    (search_backward : bool) (s_range : option (R * R)) : Answer R :=
  if lt end_s start_s then Error
  else
    let s_subrange :=
      match s_range with Some (u, v) => Some (u + start_s, v + start_s) | None => None end in
    match spline_collisions sp polygon search_backward s_subrange with
    | None => Error
    | Some candidates =>
        let inside := filter (fun s => le start_s s && le s end_s) candidates in
        match (if search_backward then greatest inside else least inside) with
        | None => Absent
        | Some s => Found (s - start_s)
        end
    end.

(** catmull_rom_spline.cpp:109-128: the loops; the fuel runs out only for a step of zero. *)
Fixpoint upward (fuel : nat) (s end_s step : R) : option (list R) :=
  match fuel with
  | O => None
  | S fuel' =>
      if lt s end_s then
        match upward fuel' (s + step) end_s step with
        | None => None
        | Some rest => Some (s :: rest)
        end
      else Some [end_s]
  end.
Fixpoint downward (fuel : nat) (s end_s step : R) : option (list R) :=
  match fuel with
  | O => None
  | S fuel' =>
      if lt end_s s then
        match downward fuel' (s - step) end_s step with
        | None => None
        | Some rest => Some (s :: rest)
        end
      else Some [end_s]
  end.

(** catmull_rom_spline.cpp:100-160: the positions whose points (or poses) [getTrajectory] and
    [getTrajectoryPoses] collect *)
Definition trajectory_positions (fuel : nat) (start_s end_s resolution : R) : Answer (list R) :=
  if le (Rabs resolution) epsilon then Error
  else
    match (if lt end_s start_s then downward fuel start_s end_s (Rabs resolution)
           else upward fuel start_s end_s (Rabs resolution)) with
    | Some l => Found l
    | None => Absent
    end.

(** hermite_curve.cpp:215-236: the loops of the curve's own [getTrajectory] *)
Fixpoint curve_upward (fuel : nat) (s end_s step : R) : option (list R) :=
  match fuel with
  | O => None
  | S fuel' =>
      if le s end_s then
        match curve_upward fuel' (s + step) end_s step with
        | None => None
        | Some rest => Some ((s + step) :: rest)
        end
      else Some []
  end.
Fixpoint curve_downward (fuel : nat) (s end_s step : R) : option (list R) :=
  match fuel with
  | O => None
  | S fuel' =>
      if le end_s s then
        match curve_downward fuel' (s - step) end_s step with
        | None => None
        | Some rest => Some ((s - step) :: rest)
        end
      else Some []
  end.
Definition curve_trajectory_positions (fuel : nat) (start_s end_s resolution : R)
  : option (list R) :=
  if le start_s end_s then curve_upward fuel start_s end_s (Rabs resolution)
  else curve_downward fuel start_s end_s (Rabs resolution).

(** catmull_rom_subspline.cpp:29-62: the altitudes of the control points between the subspline's
    ends; [position] adds up. *)
Fixpoint altitudes (points : list Point) (lengths : list R) (position start_s end_s : R) : list R :=
  match points with
  | [] => []
  | p :: rest =>
      let here := if le start_s position && le position end_s then [z p] else [] in
      match lengths with
      | l :: lengths' => here ++ altitudes rest lengths' (position + l) start_s end_s
      | [] => here
      end
  end.

(** [std::numeric_limits<double>::min()] and [max()]: the least positive and the greatest number *)
Definition double_min : R := / 2 ^ 1022.
Definition double_max : R := (2 - / 2 ^ 52) * 2 ^ 1023.

(** catmull_rom_subspline.cpp:29-62 *)
Definition altitude_range (points : list Point) (lengths : list R) (start_s end_s : R) : R * R :=
  let inside := altitudes points lengths 0 start_s end_s in
  (match least inside with Some v => v | None => double_min end,
   match greatest inside with Some v => v | None => double_max end).
