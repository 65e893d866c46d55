(** * Model of the choice of a velocity that avoids collisions.

    "solver" is /repo/simulation/context_gamma_planner/src/orca/solver.cpp, "orca" is orca.cpp beside
    it. Simplifications: numbers are reals; the z of all vectors is zero;
    the threshold, a float close to 0.00001, is 0.00001. [None] is an exception. *)
From Coq Require Import List Bool Arith Reals.
Import ListNotations.
Local Open Scope R_scope.

(** Vectors in the plane; cross2d (common/math/geometry/include/geometry/vector3/cross_2d.hpp:28-31)
    and innerProduct (inner_product.hpp:28-31). *)
Record vec := Vec { vx : R; vy : R }.
Definition plus (a b : vec) : vec := Vec (vx a + vx b) (vy a + vy b).
Definition minus (a b : vec) : vec := Vec (vx a - vx b) (vy a - vy b).
Definition times (a : vec) (k : R) : vec := Vec (vx a * k) (vy a * k).
Definition cross (a b : vec) : R := vx a * vy b - vy a * vx b.
Definition dot (a b : vec) : R := vx a * vx b + vy a * vy b.
(** normalize.hpp:28-39: an exception for vectors that are too short. *)
Definition tiny : R := / 2 ^ 52.
Definition normalize (a : vec) : option vec :=
  let n := sqrt (dot a a) in
  if Rle_dec (Rabs n) tiny then None else Some (times a (/ n)).

(** solver.hpp:30-36: velocities on the left of the line are allowed. *)
Definition orca_epsilon : R := 1 / 100000.
Record line := Line { point : vec; direction : vec }.

(** solver:58-84, the body of the loop of applyConstraintOnLine; the bounds of the parameter along [l], [None] if
    nothing is left. *)
Definition narrow (l o : line) (b : R * R) : option (R * R) :=
  let denominator := cross (direction l) (direction o) in
  let numerator := cross (direction o) (minus (point l) (point o)) in
  if Rle_dec (Rabs denominator) orca_epsilon then
    if Rlt_dec numerator 0 then None else Some b
  else
    let t := numerator / denominator in
    let b := if Rle_dec 0 denominator then (fst b, Rmin (snd b) t) else (Rmax (fst b) t, snd b) in
    if Rlt_dec (snd b) (fst b) then None else Some b.
Fixpoint narrow_all (l : line) (earlier : list line) (b : R * R) : option (R * R) :=
  match earlier with
  | [] => Some b
  | o :: earlier => match narrow l o b with None => None | Some b => narrow_all l earlier b end
  end.
(** solver:31-109, applyConstraintOnLine: line_no is the number of the [earlier] lines; here [None] is
    nullopt. *)
Definition on_line (earlier : list line) (l : line) (speed : R) (preferred : vec) (align : bool) : option vec :=
  let projection := dot (point l) (direction l) in
  let discriminant := projection * projection + speed * speed - dot (point l) (point l) in
  if Rlt_dec discriminant 0 then None
  else
    match narrow_all l earlier (- projection - sqrt discriminant, - projection + sqrt discriminant) with
    | None => None
    | Some (lower, upper) =>
        let t :=
          if align then if Rlt_dec 0 (dot preferred (direction l)) then upper else lower
          else
            let t := dot (direction l) (minus preferred (point l)) in
            if Rlt_dec t lower then lower else if Rlt_dec upper t then upper else t in
        Some (plus (point l) (times (direction l) t))
    end.

(** How far a velocity is on the wrong side, solver:126 and 149. *)
Definition violation (l : line) (v : vec) : R := cross (direction l) (minus (point l) v).
(** solver:125-137, the loop of solveLinearProgramForConstraints. *)
Fixpoint satisfy (earlier rest : list line) (radius : R) (preferred : vec) (align : bool) (result : vec) : nat * vec :=
  match rest with
  | [] => (length earlier, result)
  | l :: rest =>
      if Rlt_dec 0 (violation l result) then
        match on_line earlier l radius preferred align with
        | None => (length earlier, result)
        | Some v => satisfy (earlier ++ [l]) rest radius preferred align v
        end
      else satisfy (earlier ++ [l]) rest radius preferred align result
  end.
(** solver:113-138, solveLinearProgramForConstraints. *)
Definition start (radius : R) (preferred : vec) (align : bool) : option vec :=
  if align then Some (times preferred radius)
  else if Rlt_dec (radius * radius) (dot preferred preferred) then
    match normalize preferred with None => None | Some v => Some (times v radius) end
  else Some preferred.
Definition solve (lines : list line) (radius : R) (preferred : vec) (align : bool) : option (nat * vec) :=
  match start radius preferred align with
  | None => None
  | Some v => Some (satisfy [] lines radius preferred align v)
  end.

(** solver:154-173: where line [j] is violated as much as line [i], unless both point in the same direction. *)
Definition projected (i j : line) : option (list line) :=
  let determinant := cross (direction i) (direction j) in
  let on p :=
    match normalize (minus (direction j) (direction i)) with
    | None => None
    | Some d => Some [Line p d]
    end in
  if Rle_dec (Rabs determinant) orca_epsilon then
    if Rlt_dec 0 (dot (direction i) (direction j)) then Some []
    else on (times (plus (point i) (point j)) (1 / 2))
  else
    on (plus (point i)
          (times (direction i) (cross (direction j) (minus (point i) (point j)) / determinant))).
Fixpoint projections (i : line) (earlier : list line) : option (list line) :=
  match earlier with
  | [] => Some []
  | j :: earlier =>
      match projected i j with
      | None => None
      | Some l => match projections i earlier with None => None | Some ls => Some (l ++ ls) end
      end
  end.
(** solver:141-192, resolveConstraintViolationViaIntersectionSearch from the line that failed. *)
Fixpoint resolve (earlier rest : list line) (radius distance : R) (result : vec) : option vec :=
  match rest with
  | [] => Some result
  | l :: rest =>
      if Rlt_dec distance (violation l result) then
        match projections l earlier with
        | None => None
        | Some lines =>
            match solve lines radius (Vec (- vy (direction l)) (vx (direction l))) true with
            | None => None
            | Some (n, v) =>
                let result := if Nat.ltb n (length lines) then result else v in
                resolve (earlier ++ [l]) rest radius (violation l result) result
            end
        end
      else resolve (earlier ++ [l]) rest radius distance result
  end.
(** solver:194-210, optimizeVelocityWithConstraints. *)
Definition optimize (lines : list line) (speed : R) (preferred : vec) (align : bool) : option vec :=
  match solve lines speed preferred align with
  | None => None
  | Some (n, v) =>
      if Nat.ltb n (length lines) then resolve (firstn n lines) (skipn n lines) speed 0 v else Some v
  end.

(** orca:44-58, computeBBoxEllipseRadius: the radius of an ellipse around the box, in a direction. *)
Definition ellipse_radius (width height relative_angle current_angle : R) : R :=
  let a := width * (1 / 2) * sqrt 2 in
  let b := height * (1 / 2) * sqrt 2 in
  let c := cos (relative_angle - current_angle) in
  let s := sin (relative_angle - current_angle) in
  a * b / sqrt (b * c * (b * c) + a * s * (a * s)).
(** orca:66-106, the rest of calculateOrcaLine with the sum of the radii [r]; the time horizon is five seconds.
    [None] is a division by zero. *)
Definition divide (a : vec) (k : R) : option vec := if Req_EM_T k 0 then None else Some (times a (/ k)).
Definition orca_line (ego relative_position relative_velocity : vec) (r step : R) : option line :=
  let squared := dot relative_position relative_position in
  let at_half u d := Some (Line (plus ego (times u (1 / 2))) d) in
  if Rle_dec (r * r) squared then
    let w := minus relative_velocity (times relative_position (1 / 5)) in
    let p := dot w relative_position in
    if (if Rlt_dec p 0 then true else false) && (if Rlt_dec (r * r * dot w w) (p * p) then true else false)
    then
      match divide w (sqrt (dot w w)) with
      | None => None
      | Some unit =>
          let d := Vec (vy unit) (vx unit * -1) in
          at_half (times d (r * (1 / 5) - sqrt (dot w w))) d
      end
    else if Req_EM_T squared 0 then None
    else
      let leg := sqrt (squared - r * r) in
      let x := vx relative_position in
      let y := vy relative_position in
      let d :=
        if Rlt_dec 0 (cross relative_position w)
        then Vec ((x * leg - y * r) / squared) ((x * r + y * leg) / squared)
        else times (Vec ((x * leg + y * r) / squared) ((- x * r + y * leg) / squared)) (-1) in
      at_half (minus (times d (dot relative_velocity d)) relative_velocity) d
  else if Req_EM_T step 0 then None
  else
    let w := minus relative_velocity (times relative_position (1 / step)) in
    match divide w (sqrt (dot w w)) with
    | None => None
    | Some unit =>
        at_half (times unit (r * (1 / step) - sqrt (dot w w))) (Vec (vy unit) (vx unit * -1))
    end.
(** orca:59-63: the sum of the radii; the angle towards the other entity is given. *)
Definition combined_radius (ego_x ego_y ego_angle other_x other_y other_angle towards : R) : R :=
  ellipse_radius ego_x ego_y towards ego_angle + ellipse_radius other_x other_y (PI + towards) other_angle.
