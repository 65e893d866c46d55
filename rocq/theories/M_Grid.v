(** * The occupancy grid sensor of the sensor simulator

    Paths are relative to /repo/simulation/simple_sensor_simulator; "grid_traversal.cpp",
    "occupancy_grid_builder.cpp" and "occupancy_grid_sensor.cpp" are in
    src/sensor_simulation/occupancy_grid.

    Simplifications: [double] is Q (no rounding); [int32_t] coordinates are Z; the outlines of the
    occupied and the invisible area (boost's clipping, [atan2]) are arbitrary polygons. *)

From Coq Require Import ZArith QArith Qround List Bool Lia.
Import ListNotations.
Open Scope Z_scope.

(** ** Traversing a segment *)

(** A time at which the segment leaves the current column or row: 1 / 0 is infinite. *)
Inductive time : Set := At (q : Q) | Never.

(** [tx_ < ty_]. *)
Definition before (a b : time) : bool :=
  match a, b with
  | At p, At q => negb (Qle_bool q p)
  | At _, Never => true
  | Never, _ => false
  end.

(** [tx_ <= 1.0]. *)
Definition by_end (a : time) : bool :=
  match a with At p => Qle_bool p 1 | Never => false end.

Definition later (a b : time) : time :=
  match a, b with At p, At q => At (p + q) | _, _ => Never end.

(** [int32_t(d)] cuts towards zero; values beyond 32 bits are not modelled. *)
Definition cut (q : Q) : Z := if Qle_bool 0 q then Qfloor q else Qceiling q.

(** Models [step_x_] and [step_y_], grid_traversal.cpp 27-28: [copysign(1.0, 0.0)] is 1 (a negative
    zero is not modelled). *)
Definition step (v : Q) : Z := if Qle_bool 0 v then 1 else -1.

(** Models [tdx_] and [tdy_], grid_traversal.cpp 29-30. *)
Definition period (v : Q) : time :=
  if Qeq_bool v 0 then Never else At (inject_Z (step v) / v).

(** Models one coordinate of [begin], grid_traversal.cpp 36-39. *)
Definition first_time (s v : Q) : time :=
  let t := if Qle_bool v 0 then inject_Z (Qfloor s) else inject_Z (Qceiling s) in
  if Qeq_bool v 0 then period v else At ((t - s) / v).

(** Models [GridTraversal::Iterator], with its parent's [vx_] and [vy_]. *)
Record iterator : Set := Iterator { tx : time; ty : time; cx : Z; cy : Z }.

(** Models [begin], grid_traversal.cpp 34-41. *)
Definition begin (sx sy vx vy : Q) : iterator :=
  Iterator (first_time sx vx) (first_time sy vy) (cut sx) (cut sy).

(** Models [operator++], grid_traversal.cpp 53-63. *)
Definition next (vx vy : Q) (i : iterator) : iterator :=
  if before (tx i) (ty i)
  then Iterator (later (tx i) (period vx)) (ty i) (cx i + step vx) (cy i)
  else Iterator (tx i) (later (ty i) (period vy)) (cx i) (cy i + step vy).

(** Models [operator!=], grid_traversal.cpp 65-68. *)
Definition unfinished (i : iterator) : bool := by_end (tx i) || by_end (ty i).

(** The cells a range-based for statement visits, and the cell where it stopped; [None] when the
    fuel does not suffice. *)
Fixpoint walk (fuel : nat) (vx vy : Q) (i : iterator) : option (list (Z * Z) * (Z * Z)) :=
  if unfinished i then
    match fuel with
    | O => None
    | S n =>
        match walk n vx vy (next vx vy i) with
        | Some (l, e) => Some ((cx i, cy i) :: l, e)
        | None => None
        end
    end
  else Some ([], (cx i, cy i)).

Definition point : Set := (Q * Q)%type.

(** [for (auto [col, row] : GridTraversal(p.x, p.y, q.x, q.y))], occupancy_grid_builder.cpp 208. *)
Definition traverse (fuel : nat) (p q : point) : option (list (Z * Z) * (Z * Z)) :=
  let vx := (fst q - fst p)%Q in
  let vy := (snd q - snd p)%Q in
  walk fuel vx vy (begin (fst p) (snd p) vx vy).

(** Fuel that is enough (proved): the columns and rows between the ends, and some. *)
Definition enough (p q : point) : nat :=
  Z.to_nat (Z.abs (Qfloor (fst q) - Qfloor (fst p)) + Z.abs (Qfloor (snd q) - Qfloor (snd p)) + 6).

(** ** Vectors with checked access *)

(** A [std::vector]; reading or writing outside is undefined behaviour, [None]. *)
Record vector : Type := Vector { size : nat; at_ : nat -> Z }.

Definition read (a : vector) (i : nat) : option Z :=
  if (i <? size a)%nat then Some (at_ a i) else None.

Definition write (a : vector) (i : nat) (v : Z) : option vector :=
  if (i <? size a)%nat
  then Some (Vector (size a) (fun j => if (j =? i)%nat then v else at_ a j)) else None.

Definition filled (n : nat) (v : Z) : vector := Vector n (fun _ => v).

Definition bind {A B} (o : option A) (f : A -> option B) : option B :=
  match o with Some a => f a | None => None end.

(** [int16_t] arithmetic wraps around on conversion. *)
Definition int16 (z : Z) : Z := (z + 32768) mod 65536 - 32768.

(** [++grid[i]], [--grid[i]], [grid[i] += x]. *)
Definition bump (g : vector) (i : nat) (d : Z) : option vector :=
  bind (read g i) (fun v => write g i (int16 (v + d))).

(** ** Marking a polygon *)

(** The body of the inner loop, occupancy_grid_builder.cpp 209-212. *)
Definition see (height : nat) (ext : vector * vector) (cell : Z * Z) : option (vector * vector) :=
  let (col, row) := cell in
  if (0 <=? row) && (row <? Z.of_nat height) then
    bind (read (fst ext) (Z.to_nat row)) (fun lo =>
    bind (write (fst ext) (Z.to_nat row) (Z.min lo col)) (fun mins =>
    bind (read (snd ext) (Z.to_nat row)) (fun hi =>
    bind (write (snd ext) (Z.to_nat row) (Z.max hi col)) (fun maxs =>
    Some (mins, maxs)))))
  else Some ext.

Fixpoint see_all (height : nat) (ext : vector * vector) (cells : list (Z * Z)) :=
  match cells with
  | [] => Some ext
  | c :: r => bind (see height ext c) (fun ext => see_all height ext r)
  end.

(** Each vertex with its successor, the last one with the first: [convex_hull[(i + 1) % size]],
    occupancy_grid_builder.cpp 205-207. *)
Definition edges (poly : list point) : list (point * point) :=
  match poly with
  | [] => []
  | p :: r => combine poly (r ++ [p])
  end.

(** The loop over the edges, occupancy_grid_builder.cpp 205-214, in pixel coordinates.  The
    traversal gets enough fuel; running out would be reported as [None]. *)
Fixpoint see_edges (height : nat) (ext : vector * vector) (es : list (point * point)) :=
  match es with
  | [] => Some ext
  | (p, q) :: r =>
      bind (traverse (enough p q) p q) (fun le =>
      bind (see_all height ext (fst le)) (fun ext => see_edges height ext r))
  end.

(** The body of the loop over rows, occupancy_grid_builder.cpp 217-237. *)
Definition mark_row (width : nat) (ext : vector * vector) (g : vector) (row : nat) : option vector :=
  bind (read (fst ext) row) (fun min_col =>
  bind (read (snd ext) row) (fun m =>
  let max_col := m + 1 in
  if (max_col <=? 0) || (Z.of_nat width <=? min_col) then Some g
  else
    bind (if min_col <=? 0 then bump g (width * row) 1
          else bump g (width * row + Z.to_nat min_col) 1) (fun g =>
    if max_col <? Z.of_nat width then bump g (width * row + Z.to_nat max_col) (-1) else Some g))).

Fixpoint mark_rows (width : nat) (ext : vector * vector) (g : vector) (rows : list nat) :=
  match rows with
  | [] => Some g
  | row :: r => bind (mark_row width ext g row) (fun g => mark_rows width ext g r)
  end.

(** Models [addPolygon], occupancy_grid_builder.cpp 194-237. *)
Definition add_polygon (height width : nat) (g : vector) (poly : list point) : option vector :=
  bind (see_edges height (filled height (Z.of_nat width), filled height (-1)) (edges poly))
       (fun ext => mark_rows width ext g (seq 0 height)).

(** ** The builder *)

(** [transformToPixel], occupancy_grid_builder.cpp 52-57. *)
Definition to_pixel (resolution : Q) (height width : nat) (p : point) : point :=
  (((fst p + inject_Z (Z.of_nat width) * resolution / 2) / resolution)%Q,
   ((snd p + inject_Z (Z.of_nat height) * resolution / 2) / resolution)%Q).

(** What the builder keeps between calls (occupancy_grid_builder.hpp 85-117); the outlines are
    given in pixels. *)
Record builder : Type := Builder {
  b_height : nat; b_width : nat;
  occupied_cost : Z; invisible_cost : Z;
  primitive_count : Z;
  occupied_grid : vector; invisible_grid : vector }.

(** Models the constructor and [reset], occupancy_grid_builder.cpp 24-39 and 303-309. *)
Definition reset (b : builder) : builder :=
  Builder (b_height b) (b_width b) (occupied_cost b) (invisible_cost b) 0
    (filled (size (occupied_grid b)) 0) (filled (size (invisible_grid b)) 0).

Definition construct (height width : nat) (oc ic : Z) : builder :=
  Builder height width oc ic 0 (filled (height * width) 0) (filled (height * width) 0).

(** How a call ends. *)
Inductive ending (A : Type) : Type :=
| Returns (a : A)
| Throws
| Undefined.
Arguments Returns {A} _.
Arguments Throws {A}.
Arguments Undefined {A}.

(** Models [add], occupancy_grid_builder.cpp 255-274; a primitive is given by the outlines of its
    occupied and its invisible area. *)
Definition add (b : builder) (occupied invisible : list point) : ending builder :=
  if primitive_count b =? 32767 then Throws
  else
    match add_polygon (b_height b) (b_width b) (invisible_grid b) invisible with
    | None => Undefined
    | Some ig =>
        match add_polygon (b_height b) (b_width b) (occupied_grid b) occupied with
        | None => Undefined
        | Some og =>
            Returns (Builder (b_height b) (b_width b) (occupied_cost b) (invisible_cost b)
                             (int16 (primitive_count b + 1)) og ig)
        end
    end.

Fixpoint add_all (b : builder) (l : list (list point * list point)) : ending builder :=
  match l with
  | [] => Returns b
  | (o, i) :: r =>
      match add b o i with
      | Returns b => add_all b r
      | Throws => Throws
      | Undefined => Undefined
      end
  end.

(** The inner loop of [build], [grid[row * width + col + 1] += grid[row * width + col]]. *)
Fixpoint sum_cols (g : vector) (start : nat) (cols : list nat) : option vector :=
  match cols with
  | [] => Some g
  | col :: r =>
      bind (read g (start + col)) (fun v =>
      bind (bump g (start + col + 1) v) (fun g => sum_cols g start r))
  end.

Fixpoint sum_rows (g : vector) (width : nat) (rows : list nat) : option vector :=
  match rows with
  | [] => Some g
  | row :: r => bind (sum_cols g (row * width) (seq 0 (width - 1))) (fun g => sum_rows g width r)
  end.

(** The last loop of [build]. *)
Fixpoint fill (oc ic : Z) (o i : vector) (k : nat) : option (list Z) :=
  match k with
  | O => Some []
  | S k =>
      bind (fill oc ic o i k) (fun l =>
      bind (read o k) (fun x =>
      bind (read i k) (fun y =>
      Some (l ++ [if x =? 0 then if y =? 0 then 0 else ic else oc]))))
  end.

(** Models [build] and [get], occupancy_grid_builder.cpp 276-301: the builder with both grids
    summed in place, and the values. *)
Definition build (b : builder) : option (builder * list Z) :=
  bind (sum_rows (invisible_grid b) (b_width b) (seq 0 (b_height b))) (fun i =>
  bind (sum_rows (occupied_grid b) (b_width b) (seq 0 (b_height b))) (fun o =>
  bind (fill (occupied_cost b) (invisible_cost b) o i (b_height b * b_width b)) (fun l =>
  Some (Builder (b_height b) (b_width b) (occupied_cost b) (invisible_cost b)
                (primitive_count b) o i, l)))).

(** [reset], one [add] per primitive, [build], occupancy_grid_sensor.cpp 115-140. *)
Definition grid_of (b : builder) (prims : list (list point * list point)) : ending (list Z) :=
  match add_all (reset b) prims with
  | Returns b => match build b with Some (_, l) => Returns l | None => Undefined end
  | Throws => Throws
  | Undefined => Undefined
  end.

(** ** The message *)

(** Where the message says the grid's corner is, occupancy_grid_sensor.cpp 151-153. *)
Definition message_origin (resolution : Q) (height width : nat) (ego : point) : point :=
  ((fst ego - (1 # 2) * inject_Z (Z.of_nat height) * resolution)%Q,
   (snd ego - (1 # 2) * inject_Z (Z.of_nat width) * resolution)%Q).

(** Pixel coordinates of a point of the world: [transformToGrid] with the upright orientation the
    sensor sets (occupancy_grid_builder.cpp 41-50, occupancy_grid_sensor.cpp 100), then
    [transformToPixel]. *)
Definition pixel_of_world (resolution : Q) (height width : nat) (ego p : point) : point :=
  to_pixel resolution height width ((fst p - fst ego)%Q, (snd p - snd ego)%Q).

(** ** Which entities are drawn *)

Record status : Set := Status { st_name : nat; st_ego : bool; st_distance2 : Q }.

(** The check for unique names, occupancy_grid_sensor.cpp 71-82: [true] when it throws. *)
Fixpoint repeated (me : nat) (seen : list nat) (l : list status) : bool :=
  match l with
  | [] => false
  | s :: r =>
      if (me =? st_name s)%nat then repeated me seen r
      else existsb (Nat.eqb (st_name s)) seen || repeated me (st_name s :: seen) r
  end.

(** Models [getDetectedObjects], occupancy_grid_sensor.cpp 41-63; distances and the range are
    compared squared.  [None]: the sensor is not on an ego, it throws. *)
Definition detected_objects (me : nat) (range2 : Q) (l : list status) (lidar : list nat)
  : option (list nat) :=
  if existsb (fun s => st_ego s && (st_name s =? me)%nat) l then
    Some (map st_name (filter (fun s =>
      existsb (Nat.eqb (st_name s)) lidar && negb (st_name s =? me)%nat &&
      Qle_bool (st_distance2 s) range2) l))
  else None.

(** Models [getOccupancyGrid] up to the choice of the entities drawn,
    occupancy_grid_sensor.cpp 66-122; [None] when it throws. *)
Definition drawn (me : nat) (filter_by_range : bool) (range2 : Q) (l : list status)
  (lidar : list nat) : option (list nat) :=
  if repeated me [] l then None
  else if negb (existsb (fun s => (me =? st_name s)%nat) l) then None
  else
    match (if filter_by_range then detected_objects me range2 l lidar else Some lidar) with
    | None => None
    | Some detected =>
        Some (map st_name (filter (fun s => negb (me =? st_name s)%nat &&
                                            existsb (Nat.eqb (st_name s)) detected) l))
    end.
