(** * What a user expects of the sensors *)

From Coq Require Import QArith List String.
From Verif Require Import M_Sensors.
Import ListNotations.
Open Scope Q_scope.

(** The things there are in a list, with their positions. *)
Fixpoint numbered {B : Type} (n : nat) (l : list (option B)) : list (nat * B) :=
  match l with
  | [] => []
  | Some b :: r => (n, b) :: numbered (S n) r
  | None :: r => numbered (S n) r
  end.

Definition marks {B : Type} (l : list (option B)) : list bool :=
  map (fun o => match o with Some _ => true | None => false end) l.

(** ** Schedules *)

(** The time of the last marked frame before frame [i]; [start] if there is none. *)
Definition latest (start : Q) (times : list Q) (marks : list bool) (i : nat) (t : Q) : Prop :=
  (t = start /\ forall j, (j < i)%nat -> nth j marks false = false) \/
  exists j, (j < i)%nat /\ nth j marks false = true /\ nth_error times j = Some t /\
    forall j', (j < j' < i)%nat -> nth j' marks false = false.

(** A frame is marked exactly if the duration, less 2 ms, has passed since the last marked one. *)
Definition on_schedule (start duration : Q) (times : list Q) (marks : list bool) : Prop :=
  List.length marks = List.length times /\
  forall i t, nth_error times i = Some t ->
    (nth i marks false = true <->
     exists last, latest start times marks i last /\ duration - (2 # 1000) <= t - last).

(** ** Delays *)

(** Items pushed at some steps are handed on later, at most one at a step, in order.  [steps] gives
    the time of each step; the item number [k] was pushed at step [i].  It may go at step [j] if it
    is old enough then and the one before it went earlier. *)
Definition may_go (delay : Q) (steps : list Q) (i : nat) (before : option nat) (j : nat) : Prop :=
  (i <= j)%nat /\ (forall b, before = Some b -> (b < j)%nat) /\
  exists ti tj, nth_error steps i = Some ti /\ nth_error steps j = Some tj /\ delay <= tj - ti.

(** The step at which the item before the [k]-th went. *)
Definition before (went : list nat) (k : nat) : option nat :=
  match k with O => None | S k => nth_error went k end.

(** [pushed]: the steps at which items were pushed; [went]: the steps at which they went, each at
    the first step at which it may, and those missing may not yet. *)
Definition handed_on (delay : Q) (steps : list Q) (pushed went : list nat) : Prop :=
  (forall k j, nth_error went k = Some j ->
     exists i, nth_error pushed k = Some i /\ may_go delay steps i (before went k) j /\
       forall j', (j' < j)%nat -> ~ may_go delay steps i (before went k) j') /\
  (forall i, nth_error pushed (List.length went) = Some i ->
     forall j, ~ may_go delay steps i (before went (List.length went)) j).

(** ** Detection *)

(** On the plane of a pose or on the side its normal points to. *)
Definition on_or_above {G : geometry} (p : pose G) (v : vec) : Prop :=
  0 <= x_of (normal G (facing p)) * (x_of v - x_of (position p)) +
       y_of (normal G (facing p)) * (y_of v - y_of (position p)) +
       z_of (normal G (facing p)) * (z_of v - z_of (position p)).

(** An entity that is to be detected: not the ego itself, within the range, not below the road (at
    most 1 m lower than the ego, or not below the plane of [p]), and hit by a lidar unless all
    entities in range are wanted. *)
Definition detectable {G : geometry} (c : detection_config) (hit : nat -> Prop) (ego p : pose G)
  (s : status G) : Prop :=
  ~ (s_name s = d_entity c /\ is_ego s = true) /\
  (0 <= range c /\
   (x_of (position (where_ s)) - x_of (position ego)) * (x_of (position (where_ s)) - x_of (position ego)) +
   (y_of (position (where_ s)) - y_of (position ego)) * (y_of (position (where_ s)) - y_of (position ego)) +
   (z_of (position (where_ s)) - z_of (position ego)) * (z_of (position (where_ s)) - z_of (position ego))
   <= range c * range c) /\
  (z_of (position ego) - 1 <= z_of (position (where_ s)) \/ on_or_above p (position (where_ s))) /\
  (all_in_range c = true \/ hit (s_name s)).

(** [m] is what of [l] satisfies [P], in the same order. *)
Definition exactly {A : Type} (P : A -> Prop) (l m : list A) : Prop :=
  exists b, (forall a, b a = true <-> P a) /\ m = filter b l.

(** The ego of a frame: the first status with the name and the type. *)
Definition the_ego {G : geometry} (c : detection_config) (l : list (status G)) (p : pose G) : Prop :=
  exists i e, nth_error l i = Some e /\ p = where_ e /\
    (s_name e = d_entity c /\ is_ego e = true) /\
    forall j s, (j < i)%nat -> nth_error l j = Some s -> ~ (s_name s = d_entity c /\ is_ego s = true).

(** ** Noise *)

(** The names of parameters, after "<topic>.noise.v2.", in docs/developer_guide/Parameters.md
    121-428, that configure autocorrelation. *)
Definition documented : list string :=
  flat_map (fun what => map (fun field => (what ++ ".autocorrelation_coefficient." ++ field)%string)
                            ["amplitude"; "decay"; "offset"]%string)
           ["distance"; "yaw"; "yaw_flip"; "true_positive"]%string.

(** The same without the dot. *)
Definition misspelt : list string :=
  flat_map (fun what => map (fun field => (what ++ "autocorrelation_coefficient." ++ field)%string)
                            ["amplitude"; "decay"; "offset"]%string)
           ["distance"; "yaw"; "yaw_flip"; "true_positive"]%string.

(** Inside the ellipse with half-axes [rx * r] and [r]. *)
Definition inside (rx r x y : Q) : Prop :=
  ~ rx == 0 /\ 0 < r /\ (x / rx) * (x / rx) + y * y < r * r.

(** The value of the first ellipse that [x], [y] is in, 0 outside all. *)
Definition value_at (rx : Q) (radii values : list Q) (x y v : Q) : Prop :=
  (exists i r, nth_error radii i = Some r /\ nth_error values i = Some v /\ inside rx r x y /\
     forall j r', (j < i)%nat -> nth_error radii j = Some r' -> ~ inside rx r' x y) \/
  (v = 0 /\ forall r, In r radii -> ~ inside rx r x y).
