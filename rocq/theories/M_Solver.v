(** The polynomial solver of the geometry package
    (common/math/geometry/src/solver/polynomial_solver.cpp and its header). Numbers are real;
    rounding is left out. What becomes NaN in the code is [None] here. *)
From Coq Require Import Reals List ZArith Bool.
From Verif Require Import M_Segment.
Import ListNotations.
Open Scope R_scope.

(** solver/polynomial_solver.hpp:102 *)
Definition tolerance : R := / 10 ^ 7.

(** polynomial_solver.cpp:239-243 *)
Definition approximately (v w : R) : bool := le (Rabs (v - w)) tolerance.

(** polynomial_solver.cpp:41-45 *)
Definition cubic (a b c d t : R) : R := a * t * t * t + b * t * t + c * t + d.

(** polynomial_solver.cpp:150-159: [is_in_range]; NaN is in no range. *)
Definition in_range (value : option R) (min max : R) : option R :=
  match value with
  | None => None
  | Some v =>
      if le min v && le v max then Some v
      else if le (Rabs (v - max)) tolerance then Some max
      else if le (Rabs (v - min)) tolerance then Some min
      else None
  end.

(** polynomial_solver.cpp:142-170 *)
Fixpoint filter_by_range (values : list (option R)) (min max : R) : list R :=
  match values with
  | [] => []
  | v :: rest =>
      match in_range v min max with
      | Some w => w :: filter_by_range rest min max
      | None => filter_by_range rest min max
      end
  end.

(** polynomial_solver.cpp:47-73; [None] is the exception. *)
Definition solve_linear (a b min max : R) : option (list R) :=
  if approximately a 0 then
    if approximately b 0 then None else Some (filter_by_range [] min max)
  else Some (filter_by_range [Some (- b / a)] min max).

(** polynomial_solver.cpp:75-97 *)
Definition solve_quadratic (a b c min max : R) : option (list R) :=
  if approximately a 0 then solve_linear b c min max
  else
    let discriminant := b * b - 4 * a * c in
    Some (filter_by_range
            (if approximately discriminant 0 then [Some (- b / (2 * a))]
             else if lt discriminant 0 then []
             else [Some ((- b - sqrt discriminant) / (2 * a));
                   Some ((- b + sqrt discriminant) / (2 * a))])
            min max).

(** polynomial_solver.cpp:183-188: the transformation of x^3 + a x^2 + b x + c *)
Definition q_of (a b : R) : R := (a * a - 3 * b) / 9.
Definition r_of (a b c : R) : R := (a * (2 * a * a - 9 * b) + 27 * c) / 54.

(** [std::clamp(r / std::sqrt(q3), -1.0, 1.0)]. The root of a negative number and 0/0 are NaN,
    which [std::clamp] hands on; a division of another number by zero is an infinity, which it
    cuts to 1 or -1. *)
Definition clamped_ratio (r q3 : R) : option R :=
  if lt q3 0 then None
  else if Req_EM_T q3 0 then
         if Req_EM_T r 0 then None else Some (if lt 0 r then 1 else -1)
       else let v := r / sqrt q3 in
            Some (if lt v (-1) then -1 else if lt 1 v then 1 else v).

(** [std::cbrt] *)
Definition cbrt (v : R) : R :=
  if lt 0 v then Rpower v (/ 3) else if lt v 0 then - Rpower (- v) (/ 3) else 0.

(** polynomial_solver.cpp:190-235: values with their imaginary parts *)
Definition monic_cubic (a q r : R) : list (option R * R) :=
  let q3 := q * q * q in
  if le (r * r) (q3 + tolerance) then
    match clamped_ratio r q3 with
    | None => [(None, 0); (None, 0); (None, 0)]
    | Some v =>
        let t := acos v in
        [(Some (-2 * sqrt q * cos (t / 3) - a / 3), 0);
         (Some (-2 * sqrt q * cos ((t + 2 * PI) / 3) - a / 3), 0);
         (Some (-2 * sqrt q * cos ((t - 2 * PI) / 3) - a / 3), 0)]
    end
  else
    let real_solution := - cbrt (Rabs r + sqrt (r * r - q3)) in
    let A := if lt r 0 then -1 * real_solution else real_solution in
    let B := if approximately A 0 then 0 else q / A in
    let imaginary_part := 1 / 2 * sqrt 3 * (A - B) in
    if approximately imaginary_part 0 then
      [(Some (A + B - a / 3), 0); (Some (- (1 / 2) * (A + B) - a / 3), 0)]
    else
      [(Some (A + B - a / 3), 0);
       (Some (- (1 / 2) * (A + B) - a / 3), - imaginary_part);
       (Some (- (1 / 2) * (A + B) - a / 3), imaginary_part)].

(** polynomial_solver.cpp:103-126: [get_real_values] *)
Fixpoint real_values (values : list (option R * R)) : list (option R) :=
  match values with
  | [] => []
  | (v, imaginary) :: rest =>
      if le (Rabs imaginary) epsilon then v :: real_values rest else real_values rest
  end.

(** polynomial_solver.cpp:99-140 *)
Definition solve_cubic (a b c d min max : R) : option (list R) :=
  if approximately a 0 then solve_quadratic b c d min max
  else Some (filter_by_range
               (real_values (monic_cubic (b / a) (q_of (b / a) (c / a))
                                         (r_of (b / a) (c / a) (d / a))))
               min max).
