(** * What the behaviour trees are meant to do

    Read with M_Behavior.v's types only: actions, requests, worlds and moves.  The decisions of a
    vehicle are described as a list of actions in order of priority, and by distances. *)

From Coq Require Import String List Bool QArith Qminmax.
From Verif Require Import M_Behavior.
Import ListNotations.
Open Scope Q_scope.

(** ** The order of the actions *)

Definition vehicle_order : list leaf :=
  [ LaneChange; FollowTrajectory; FollowLane; FollowFrontEntity; StopAtTrafficLight;
    StopAtStopLine; StopAtCrossingEntity; Yield; MoveBackward ].

Definition pedestrian_order : list leaf := [ FollowLane; WalkStraight; FollowTrajectory ].

Definition leaf_eqb (a b : leaf) : bool :=
  match a, b with
  | LaneChange, LaneChange | FollowTrajectory, FollowTrajectory | FollowLane, FollowLane
  | FollowFrontEntity, FollowFrontEntity | StopAtTrafficLight, StopAtTrafficLight
  | StopAtStopLine, StopAtStopLine | StopAtCrossingEntity, StopAtCrossingEntity
  | Yield, Yield | MoveBackward, MoveBackward | WalkStraight, WalkStraight => true
  | _, _ => false
  end.

(** Between two ticks either no action is in progress or one is. *)
Inductive position := Free | Busy (l : leaf).

Fixpoint from_on (l : leaf) (ls : list leaf) : list leaf :=
  match ls with
  | nil => nil
  | k :: rest => if leaf_eqb k l then ls else from_on l rest
  end.

(** The actions a tick consults: all of them, or the one in progress and those after it. *)
Definition consulted (order : list leaf) (q : position) : list leaf :=
  match q with Free => order | Busy l => from_on l order end.

(** The request that names an action. *)
Definition request_of (l : leaf) : option request :=
  match l with
  | LaneChange => Some LaneChangeR
  | FollowTrajectory => Some FollowPolylineR
  | FollowLane => Some FollowLaneR
  | WalkStraight => Some WalkStraightR
  | _ => None
  end.

Definition request_eqb (a b : request) : bool :=
  match a, b with
  | NoRequest, NoRequest | LaneChangeR, LaneChangeR | FollowLaneR, FollowLaneR
  | FollowPolylineR, FollowPolylineR | WalkStraightR, WalkStraightR => true
  | _, _ => false
  end.

(** The request left when action [l] has declined or ended: the one that names it is dropped. *)
Definition dropped (l : leaf) (r : request) : request :=
  match request_of l with
  | Some x => if request_eqb r x then NoRequest else r
  | None => r
  end.

Inductive turned (S : Type) :=
| Acts (l : leaf) (st : bt_status) (r : request) (s : S)
| NobodyActs (r : request) (s : S).
Arguments Acts {S} _ _ _ _.
Arguments NobodyActs {S} _ _.

(** The first action that does not decline acts; each one that declines drops its request. *)
Fixpoint turn {S} (act : leaf -> request -> S -> option (bt_status * S)) (ls : list leaf)
  (r : request) (s : S) : option (turned S) :=
  match ls with
  | nil => Some (NobodyActs r s)
  | l :: rest =>
      match act l r s with
      | None | Some (Idle, _) => None
      | Some (Failure, s') => turn act rest (dropped l r) s'
      | Some (st, s') => Some (Acts l st r s')
      end
  end.

(** The node whose name is the current action when an action is asked, coming from another one. *)
Definition before_vehicle (l : leaf) : string :=
  match l with
  | LaneChange => "root"
  | FollowTrajectory => "follow_trajectory_sequence"
  | FollowLane => "follow_lane_sequence"
  | FollowFrontEntity => "follow_lane_behavior_selector"
  | StopAtTrafficLight => "follow_front_entity"
  | StopAtStopLine => "stop_at_traffic_light"
  | StopAtCrossingEntity => "stop_at_stop_line"
  | Yield => "stop_at_crossing_entity"
  | MoveBackward => "yield"
  | WalkStraight => "root"
  end%string.

Definition before_pedestrian (l : leaf) : string :=
  match l with
  | FollowLane => "root"
  | WalkStraight => "follow_lane"
  | FollowTrajectory => "follow_trajectory_sequence"
  | _ => "root"
  end%string.

(** What a user sees of a frame: the current action, the request left, the state, the number of
    passes over the list; or an exception; or that it was not over after so many passes. *)
Inductive seen (S : Type) :=
| Did (action : string) (r : request) (s : S) (passes : nat)
| Failed
| Endless.
Arguments Did {S} _ _ _ _.
Arguments Failed {S}.
Arguments Endless {S}.

Definition is_busy (q : position) (l : leaf) : bool :=
  match q with Busy k => leaf_eqb k l | Free => false end.

(** A frame of the ordered list: a pass in which nobody acts, and one in which an action that ends
    at once has [before] name "root", is followed by another pass over the whole list. *)
Fixpoint list_frame {S} (order : list leaf) (before : leaf -> string)
  (act : leaf -> request -> S -> option (bt_status * S)) (fuel done : nat) (q : position)
  (r : request) (s : S) : seen S * position :=
  match fuel with
  | O => (Endless, q)
  | Datatypes.S fuel' =>
      match turn act (consulted order q) r s with
      | None => (Failed, q)
      | Some (NobodyActs r' s') =>
          list_frame order before act fuel' (Datatypes.S done) Free r' s'
      | Some (Acts l Running r' s') => (Did (leaf_name l) r' s' (Datatypes.S done), Busy l)
      | Some (Acts l _ r' s') =>
          if is_busy q l then (Did (leaf_name l) (dropped l r') s' (Datatypes.S done), Free)
          else if String.eqb (before l) "root"
               then list_frame order before act fuel' (Datatypes.S done) Free r' s'
               else (Did (before l) r' s' (Datatypes.S done), Free)
      end
  end.

(** One frame's circumstances: what the actions do, the request and the state at its start. *)
Record circumstances (S : Type) := Circumstances {
  c_act : leaf -> request -> S -> option (bt_status * S);
  c_request : request;
  c_state : S }.
Arguments Circumstances {S} _ _ _.
Arguments c_act {S} _.
Arguments c_request {S} _.
Arguments c_state {S} _.

(** A history of frames, up to the first that does not return. *)
Fixpoint list_history {S} (order : list leaf) (before : leaf -> string) (fuel : nat)
  (q : position) (cs : list (circumstances S)) : list (seen S) :=
  match cs with
  | nil => nil
  | c :: rest =>
      match list_frame order before (c_act c) fuel 0 q (c_request c) (c_state c) with
      | (Did a r s n, q') => Did a r s n :: list_history order before fuel q' rest
      | (o, _) => [o]
      end
  end.

Fixpoint tree_history {S} (fuel : nat) (t : node leaf) (cur : string)
  (cs : list (circumstances S)) : list (seen S) :=
  match cs with
  | nil => nil
  | c :: rest =>
      match update leaf_name (c_act c) fuel 0 t (Context (c_request c) cur (c_state c)) with
      | Returned t' c' n =>
          Did (ctx_action c') (ctx_request c') (ctx_state c') n
          :: tree_history fuel t' (ctx_action c') rest
      | Threw => [Failed]
      | Looping => [Endless]
      end
  end.

(** The action in progress: the one whose node is RUNNING. *)
Fixpoint in_progress (n : node leaf) : option leaf :=
  match n with
  | Leaf l Running => Some l
  | Leaf _ _ => None
  | Fallback _ _ _ ks =>
      fold_right (fun k o => match in_progress k with Some l => Some l | None => o end) None ks
  end.

(** A tree that frames, under whatever circumstances, lead to. *)
Inductive reachable (start : node leaf) : node leaf -> string -> Prop :=
| R_start : reachable start start ""
| R_frame : forall (S : Type) t cur act fuel (c : context S) t' c' n,
    reachable start t cur -> ctx_action c = cur ->
    update leaf_name act fuel 0 t c = Returned t' c' n ->
    reachable start t' (ctx_action c').

(** ** When a vehicle's way is clear, and what it does when it is not *)

Section Decisions.
  Context {E : Type}.
  Variables (w : world E) (p : settings) (e : E).

  Definition within (o : option Q) (P : Q -> Prop) : Prop :=
    match o with Some d => P d | None => False end.

  (** The speed a vehicle aims at when nothing hinders it. *)
  Definition aim (v : Q) : Prop :=
    target_speed p = Some v \/ target_speed p = None /\ v = limit E w e.

  (** How far it looks for traffic lights: five seconds, at least 20 and at most 50 metres. *)
  Definition sight : Q := Qmin 50 (Qmax 20 (5 * speed E w e)).

  (** The gap to the entity ahead, as the action that follows the lane, the one that follows
      entities and those that stop measure it. *)
  Inductive gap_for_lane : Q -> Prop :=
  | G_path : forall d v, by_path p = true -> path_front E w e = Some (d, v) -> gap_for_lane d
  | G_lane : forall f d, by_path p = false -> lane_front E w e = Some f ->
      gap_threshold f = Some d -> gap_for_lane d.

  Inductive gap_to_follow : Q -> Q -> Prop :=
  | F_path : forall d v, by_path p = true -> path_front E w e = Some (d, v) -> gap_to_follow d v
  | F_lane : forall f, by_path p = false -> lane_front E w e = Some f ->
      gap_to_follow (gap f) (front_speed f).

  Inductive gap_for_stop : Q -> Prop :=
  | S_lane : forall f d, lane_front E w e = Some f -> gap_threshold f = Some d -> gap_for_stop d.

  (** Something the driver looks out for is close enough to matter. *)
  Definition hindered : Prop :=
    see_around p = true
    /\ (right_of_way E w = true
        \/ (exists d, gap_for_lane d /\ d <= stop_distance E w e + length_ p + 5)
        \/ within (light_line E w e) (fun d => d <= sight)
        \/ within (stop_line E w e) (fun d => d <= stop_distance E w e + length_ p / 2 + 5)
        \/ within (conflict E w e) (fun d => d < length_ p + 3 + stop_distance E w e)).

  (** There is an entity to follow and neither a crossing entity nor a stop line is before it. *)
  Definition front_first (d v : Q) : Prop :=
    gap_to_follow d v
    /\ ~ within (conflict E w e) (fun c => c < d)
    /\ ~ within (stop_line E w e) (fun c => c < d).

  Definition stop_line_first (d : Q) : Prop :=
    stop_line E w e = Some d
    /\ ~ (exists f, gap_for_stop f /\ f <= d)
    /\ ~ within (conflict E w e) (fun c => c <= d).

  Definition crossing_first (d : Q) : Prop :=
    conflict E w e = Some d
    /\ ~ (exists f, gap_for_stop f /\ f <= d)
    /\ ~ within (stop_line E w e) (fun c => c <= d).

  Definition red_light (d : Q) : Prop := light_line E w e = Some d /\ d <= sight.

  (** The speed for stopping at a point [d] ahead: the current speed, 0 once what is left is
      shorter than the stop distance. *)
  Definition stopping (d t : Q) : Prop :=
    (d - (length_ p / 2 + 1) < stop_distance E w e /\ t == 0)
    \/ (stop_distance E w e <= d - (length_ p / 2 + 1) /\ t == speed E w e).

  (** The same, not more than the target speed. *)
  Definition stopping_limited (d t : Q) : Prop :=
    exists b, stopping d b
    /\ (target_speed p = None /\ t == b \/ exists x, target_speed p = Some x /\ t == Qmin x b).

  (** The speed behind an entity at distance [d] with speed [v]. *)
  Definition following (d v t : Q) : Prop :=
    exists a, aim a
    /\ (a <= v /\ t == a
        \/ v < a /\ d <= stop_distance E w e /\ t == 0
        \/ v < a /\ stop_distance E w e + length_ p + 5 <= d /\ stop_distance E w e < d
           /\ t == Qmin a (Qmax 0 (v + 2))
        \/ v < a /\ stop_distance E w e < d < stop_distance E w e + length_ p + 5
           /\ t == Qmin a (Qmax 0 v)).

  (** The speed at a stop line [d] ahead: off it goes once it stands close to the line. *)
  Definition at_line (d t : Q) : Prop :=
    (- (1 # 1000) < speed E w e < 1 # 1000 /\ d <= length_ p + 5 /\ exists a, aim a /\ t == a)
    \/ (~ (- (1 # 1000) < speed E w e < 1 # 1000 /\ d <= length_ p + 5) /\ stopping_limited d t).

  (** The action a vehicle on a lane, not moving backwards, takes when it is free to choose, and
      the speed it aims at. *)
  Inductive decision : leaf -> Q -> Prop :=
  | D_clear : forall t, ~ hindered -> aim t -> decision FollowLane t
  | D_yield : forall t, hindered -> right_of_way E w = true ->
      (yield_line E w e = None /\ t == limit E w e
       \/ exists d, yield_line E w e = Some d /\ stopping d t) ->
      decision Yield t
  | D_front : forall d v t, hindered -> right_of_way E w = false -> front_first d v ->
      following d v t -> decision FollowFrontEntity t
  | D_light : forall d t, hindered -> right_of_way E w = false ->
      (forall d' v, ~ front_first d' v) -> red_light d -> stopping_limited d t ->
      decision StopAtTrafficLight t
  | D_line : forall d t, hindered -> right_of_way E w = false ->
      (forall d' v, ~ front_first d' v) -> (forall d', ~ red_light d') -> stop_line_first d ->
      at_line d t -> decision StopAtStopLine t
  | D_crossing : forall d t, hindered -> right_of_way E w = false ->
      (forall d' v, ~ front_first d' v) -> (forall d', ~ red_light d') ->
      (forall d', ~ stop_line_first d') -> crossing_first d -> stopping_limited d t ->
      decision StopAtCrossingEntity t
  | D_through : forall t, hindered -> right_of_way E w = false ->
      (forall d' v, ~ front_first d' v) -> (forall d', ~ red_light d') ->
      (forall d', ~ stop_line_first d') -> (forall d', ~ crossing_first d') -> aim t ->
      decision Yield t.

  (** The target speeds are not negative, and the speed planner neither reverses a vehicle that is
      asked for such a speed (C29) nor takes it off its lanes. *)
  Definition orderly : Prop :=
    (forall v, aim v -> 0 <= v) /\ 0 <= limit E w e
    /\ forall t, in_lane E w (advance E w t e) = true
                 /\ (0 <= t -> 0 <= speed E w e -> 0 <= speed E w (advance E w t e)).
End Decisions.

(** [n] frames under the same circumstances, each from where the last one ended. *)
Fixpoint frames {E : Type} (w : world E) (p : settings) (n : nat) (t : node leaf)
  (c : context (state E)) : option (node leaf * context (state E)) :=
  match n with
  | O => Some (t, c)
  | Datatypes.S n' =>
      match vehicle_frame E w p 3 t c with
      | Returned t' c' _ => frames w p n' t' c'
      | Threw | Looping => None
      end
  end.
