(** * The trees refine the ordered lists *)

From Coq Require Import String List Bool QArith Lqa Lia.
From Verif Require Import M_Behavior S_Behavior.
Import ListNotations.
Open Scope string_scope.

(** The vehicle's tree when no action is in progress (the root remembers how it ended), and when
    [l] is. *)
Definition vehicle_free (st : bt_status) : node leaf :=
  Fallback "root" st 0
    [ Leaf LaneChange Idle;
      Fallback "follow_trajectory_sequence" Idle 0 [ Leaf FollowTrajectory Idle ];
      Fallback "follow_lane_sequence" Idle 0
        [ Leaf FollowLane Idle;
          Fallback "follow_lane_behavior_selector" Idle 0
            [ Leaf FollowFrontEntity Idle; Leaf StopAtTrafficLight Idle; Leaf StopAtStopLine Idle;
              Leaf StopAtCrossingEntity Idle; Leaf Yield Idle; Leaf MoveBackward Idle ] ] ].

Definition lane_free : list (node leaf) :=
  [ Leaf FollowLane Idle;
    Fallback "follow_lane_behavior_selector" Idle 0
      [ Leaf FollowFrontEntity Idle; Leaf StopAtTrafficLight Idle; Leaf StopAtStopLine Idle;
        Leaf StopAtCrossingEntity Idle; Leaf Yield Idle; Leaf MoveBackward Idle ] ].

Definition selecting (i : nat) (ks : list (node leaf)) : node leaf :=
  Fallback "root" Running 2
    [ Leaf LaneChange Failure;
      Fallback "follow_trajectory_sequence" Failure 0 [ Leaf FollowTrajectory Idle ];
      Fallback "follow_lane_sequence" Running 1
        [ Leaf FollowLane Failure; Fallback "follow_lane_behavior_selector" Running i ks ] ].

Definition vehicle_busy (l : leaf) : node leaf :=
  match l with
  | LaneChange =>
      Fallback "root" Running 0
        [ Leaf LaneChange Running;
          Fallback "follow_trajectory_sequence" Idle 0 [ Leaf FollowTrajectory Idle ];
          Fallback "follow_lane_sequence" Idle 0 lane_free ]
  | FollowTrajectory =>
      Fallback "root" Running 1
        [ Leaf LaneChange Failure;
          Fallback "follow_trajectory_sequence" Running 0 [ Leaf FollowTrajectory Running ];
          Fallback "follow_lane_sequence" Idle 0 lane_free ]
  | FollowLane =>
      Fallback "root" Running 2
        [ Leaf LaneChange Failure;
          Fallback "follow_trajectory_sequence" Failure 0 [ Leaf FollowTrajectory Idle ];
          Fallback "follow_lane_sequence" Running 0
            [ Leaf FollowLane Running;
              Fallback "follow_lane_behavior_selector" Idle 0
                [ Leaf FollowFrontEntity Idle; Leaf StopAtTrafficLight Idle;
                  Leaf StopAtStopLine Idle; Leaf StopAtCrossingEntity Idle; Leaf Yield Idle;
                  Leaf MoveBackward Idle ] ] ]
  | FollowFrontEntity =>
      selecting 0 [ Leaf FollowFrontEntity Running; Leaf StopAtTrafficLight Idle;
                    Leaf StopAtStopLine Idle; Leaf StopAtCrossingEntity Idle; Leaf Yield Idle;
                    Leaf MoveBackward Idle ]
  | StopAtTrafficLight =>
      selecting 1 [ Leaf FollowFrontEntity Failure; Leaf StopAtTrafficLight Running;
                    Leaf StopAtStopLine Idle; Leaf StopAtCrossingEntity Idle; Leaf Yield Idle;
                    Leaf MoveBackward Idle ]
  | StopAtStopLine =>
      selecting 2 [ Leaf FollowFrontEntity Failure; Leaf StopAtTrafficLight Failure;
                    Leaf StopAtStopLine Running; Leaf StopAtCrossingEntity Idle; Leaf Yield Idle;
                    Leaf MoveBackward Idle ]
  | StopAtCrossingEntity =>
      selecting 3 [ Leaf FollowFrontEntity Failure; Leaf StopAtTrafficLight Failure;
                    Leaf StopAtStopLine Failure; Leaf StopAtCrossingEntity Running;
                    Leaf Yield Idle; Leaf MoveBackward Idle ]
  | Yield =>
      selecting 4 [ Leaf FollowFrontEntity Failure; Leaf StopAtTrafficLight Failure;
                    Leaf StopAtStopLine Failure; Leaf StopAtCrossingEntity Failure;
                    Leaf Yield Running; Leaf MoveBackward Idle ]
  | MoveBackward =>
      selecting 5 [ Leaf FollowFrontEntity Failure; Leaf StopAtTrafficLight Failure;
                    Leaf StopAtStopLine Failure; Leaf StopAtCrossingEntity Failure;
                    Leaf Yield Failure; Leaf MoveBackward Running ]
  | WalkStraight => vehicle_free Idle
  end.

Definition pedestrian_free (st : bt_status) : node leaf :=
  Fallback "root" st 0
    [ Leaf FollowLane Idle; Leaf WalkStraight Idle;
      Fallback "follow_trajectory_sequence" Idle 0 [ Leaf FollowTrajectory Idle ] ].

Definition pedestrian_busy (l : leaf) : node leaf :=
  match l with
  | FollowLane =>
      Fallback "root" Running 0
        [ Leaf FollowLane Running; Leaf WalkStraight Idle;
          Fallback "follow_trajectory_sequence" Idle 0 [ Leaf FollowTrajectory Idle ] ]
  | WalkStraight =>
      Fallback "root" Running 1
        [ Leaf FollowLane Failure; Leaf WalkStraight Running;
          Fallback "follow_trajectory_sequence" Idle 0 [ Leaf FollowTrajectory Idle ] ]
  | FollowTrajectory =>
      Fallback "root" Running 2
        [ Leaf FollowLane Failure; Leaf WalkStraight Failure;
          Fallback "follow_trajectory_sequence" Running 0 [ Leaf FollowTrajectory Running ] ]
  | _ => pedestrian_free Idle
  end.

(** [vehicle_at q t cur]: [t] is the tree in position [q] with current action [cur]. *)
Definition at_position (order : list leaf) (free : bt_status -> node leaf)
  (busy : leaf -> node leaf) (q : position) (t : node leaf) (cur : string) : Prop :=
  match q with
  | Free => exists st, st <> Running /\ t = free st
  | Busy l => In l order /\ t = busy l /\ cur = leaf_name l
  end.

Definition vehicle_at := at_position vehicle_order vehicle_free vehicle_busy.
Definition pedestrian_at := at_position pedestrian_order pedestrian_free pedestrian_busy.

(** What a tick leaves when the ordered list says [o]. *)
Definition leaves (before : leaf -> string) (at_ : position -> node leaf -> string -> Prop)
  {S} (q : position) (o : option (turned S))
  (out : option (node leaf * context S * bt_status)) : Prop :=
  match o with
  | None => out = None
  | Some (NobodyActs r s) =>
      exists t, out = Some (t, Context r "root" s, Failure) /\ at_ Free t "root"
  | Some (Acts l Running r s) =>
      exists t, out = Some (t, Context r (leaf_name l) s, Running) /\ at_ (Busy l) t (leaf_name l)
  | Some (Acts l st r s) =>
      let cur := match q with Busy k => if leaf_eqb k l then leaf_name l else before l
                         | Free => before l end in
      st = Success
      /\ exists t, out = Some (t, Context (match q with
                                           | Busy k => if leaf_eqb k l then dropped l r else r
                                           | Free => r end) cur s, Success)
                   /\ at_ Free t cur
  end.


Section Refinement.
  Context {S : Type}.
  Variable act : leaf -> request -> S -> option (bt_status * S).

  (** The loop of [FallbackNode::tick] as a function of its own. *)
  Fixpoint run_children (ks : list (node leaf)) (skip at_ : nat) (c : context S)
    : option (list (node leaf) * nat * context S * bt_status) :=
    match ks with
    | nil => Some (nil, at_, c, Failure)
    | k :: rest =>
        match skip with
        | Datatypes.S skip' =>
            match run_children rest skip' (Datatypes.S at_) c with
            | Some (rest', i, c', r) => Some (k :: rest', i, c', r)
            | None => None
            end
        | O =>
            match tick leaf_name act k c with
            | None => None
            | Some (_, _, Idle) => None
            | Some (k', c', Running) => Some (k' :: rest, at_, c', Running)
            | Some (k', c', Success) => Some (k' :: rest, at_, c', Success)
            | Some (k', c', Failure) =>
                match run_children rest O (Datatypes.S at_) c' with
                | Some (rest', i, c'', r) => Some (k' :: rest', i, c'', r)
                | None => None
                end
            end
        end
    end.

  Lemma tick_fallback : forall name st i ks c,
    tick leaf_name act (Fallback name st i ks) c
    = match run_children ks i O (notify name st Running c) with
      | None => None
      | Some (ks', i, c', Running) => Some (Fallback name Running i ks', c', Running)
      | Some (ks', _, c', r) =>
          Some (Fallback name r O (map halt_child ks'), notify name Running r c', r)
      end.
  Proof. reflexivity. Qed.

  Lemma tick_leaf : forall l st r cur s,
    tick leaf_name act (Leaf l st) (Context r cur s)
    = match act l r s with
      | None => None
      | Some (x, s') => Some (Leaf l x, notify (leaf_name l) st x (Context r cur s'), x)
      end.
  Proof. reflexivity. Qed.

  (** Notifications of the nodes of the trees. *)
  Lemma notify_running : forall name st r cur (s : S), st <> Running ->
    notify name st Running (Context r cur s) = Context r name s.
  Proof. intros name st r cur s NR. destruct st; try congruence; reflexivity. Qed.

  Lemma notify_same : forall name st (c : context S), notify name st st c = c.
  Proof. intros. unfold notify. destruct st; reflexivity. Qed.

  Lemma notify_leaf_failure : forall l st r cur (s : S), st <> Failure ->
    notify (leaf_name l) st Failure (Context r cur s) = Context (dropped l r) (leaf_name l) s.
  Proof. intros l st r cur s NF. destruct st; try congruence; destruct l, r; reflexivity. Qed.

  Definition is_fallback (name : string) : Prop :=
    In name ["root"; "follow_trajectory_sequence"; "follow_lane_sequence";
             "follow_lane_behavior_selector"].

  Lemma notify_fallback_failure : forall name r cur (s : S), is_fallback name ->
    notify name Running Failure (Context r cur s) = Context r name s.
  Proof.
    intros name r cur s F. cbn in F.
    destruct F as [<- | [<- | [<- | [<- | []]]]]; destruct r; reflexivity.
  Qed.

  Lemma notify_success : forall name st r cur (s : S), st <> Success ->
    notify name st Success (Context r cur s)
    = if request_string r =? cur then Context NoRequest cur s else Context r cur s.
  Proof. intros name st r cur s NS. destruct st; try congruence; reflexivity. Qed.

  (** The request after an action that ended in success with current action [cur]. *)
  Definition after (cur : string) (r : request) : request :=
    if request_string r =? cur then NoRequest else r.

  Lemma after_idem : forall cur r, cur <> "none" -> after cur (after cur r) = after cur r.
  Proof.
    intros cur r N. unfold after. destruct (request_string r =? cur) eqn:X.
    - destruct (request_string NoRequest =? cur); reflexivity.
    - rewrite X. reflexivity.
  Qed.

  Lemma notify_success_after : forall name st r cur (s : S), st <> Success ->
    notify name st Success (Context r cur s) = Context (after cur r) cur s.
  Proof.
    intros. rewrite notify_success by assumption. unfold after.
    destruct (request_string r =? cur); reflexivity.
  Qed.

  (** ** One fallback with leaves only *)

  (** What a fallback named [name] leaves, given the ordered list's answer. *)
  Definition node_leaves (name : string) (before : leaf -> string) (busy : leaf -> node leaf)
    (free : bt_status -> node leaf) (kept : option (leaf * string)) (o : option (turned S))
    (out : option (node leaf * context S * bt_status)) : Prop :=
    match o with
    | None => out = None
    | Some (NobodyActs r s) => out = Some (free Failure, Context r name s, Failure)
    | Some (Acts l Running r s) =>
        out = Some (busy l,
                    Context r (match kept with
                               | Some (k, cur) => if leaf_eqb k l then cur else leaf_name l
                               | None => leaf_name l end) s, Running)
    | Some (Acts l st r s) =>
        st = Success
        /\ let cur := match kept with
                      | Some (k, cur) => if leaf_eqb k l then cur else before l
                      | None => before l end in
           out = Some (free Success, Context (after cur r) cur s, Success)
    end.

  Ltac step_leaf :=
    rewrite tick_leaf;
    match goal with
    | |- context [match act ?l ?r ?s with _ => _ end] => destruct (act l r s) as [[[] ?]|]
    end; cbn iota beta;
    repeat first
      [ rewrite notify_same
      | rewrite notify_leaf_failure by discriminate
      | rewrite notify_running by discriminate
      | rewrite notify_fallback_failure by (cbn; tauto)
      | rewrite notify_success_after by discriminate
      | rewrite after_idem by (discriminate || assumption) ];
    cbn iota beta; try reflexivity; try (split; reflexivity).

  Definition selector_free (st : bt_status) : node leaf :=
    Fallback "follow_lane_behavior_selector" st 0
      [ Leaf FollowFrontEntity Idle; Leaf StopAtTrafficLight Idle; Leaf StopAtStopLine Idle;
        Leaf StopAtCrossingEntity Idle; Leaf Yield Idle; Leaf MoveBackward Idle ].

  Definition selector_busy (l : leaf) : node leaf :=
    match vehicle_busy l with
    | Fallback _ _ _ [_; _; Fallback _ _ _ [_; n]] => n
    | n => n
    end.

  Definition selector_order : list leaf :=
    [ FollowFrontEntity; StopAtTrafficLight; StopAtStopLine; StopAtCrossingEntity; Yield;
      MoveBackward ].

  Opaque notify.

  Lemma selector_tick_free : forall r cur s,
    node_leaves "follow_lane_behavior_selector" before_vehicle selector_busy selector_free None
      (turn act selector_order r s)
      (tick leaf_name act (selector_free Idle) (Context r cur s)).
  Proof.
    intros r cur s. unfold selector_free. rewrite tick_fallback.
    rewrite notify_running by discriminate. cbn [turn selector_order run_children].
    do 6 step_leaf.
  Qed.

  Lemma selector_tick_busy : forall l r cur s, In l selector_order -> cur <> "none" ->
    node_leaves "follow_lane_behavior_selector" before_vehicle selector_busy selector_free
      (Some (l, cur)) (turn act (from_on l selector_order) r s)
      (tick leaf_name act (selector_busy l) (Context r cur s)).
  Proof.
    intros l r cur s I N. cbn in I.
    destruct I as [<- | [<- | [<- | [<- | [<- | [<- | []]]]]]];
      cbn [selector_busy vehicle_busy selecting]; rewrite tick_fallback; rewrite notify_same;
      cbn [turn selector_order run_children from_on leaf_eqb]; do 6 (try step_leaf).
  Qed.

  (** ** Fallbacks above it *)

  Ltac clean :=
    repeat first
      [ rewrite notify_same
      | rewrite notify_leaf_failure by discriminate
      | rewrite notify_running by discriminate
      | rewrite notify_fallback_failure by (cbn; tauto)
      | rewrite notify_success_after by discriminate
      | rewrite after_idem by (discriminate || assumption) ].

  (** Use what is known about a child: [H] is its [node_leaves]. *)
  Ltac child H :=
    let o := fresh "o" in
    unfold node_leaves in H;
    match type of H with
    | match ?x with _ => _ end => destruct x as [[?l [] ?r ?s | ?r ?s]|]
    end;
    try (destruct H as [? H]; try discriminate); rewrite H; cbn iota beta; clean;
    cbn iota beta.

  Definition lane_free_ (st : bt_status) : node leaf :=
    Fallback "follow_lane_sequence" st 0 [ Leaf FollowLane Idle; selector_free Idle ].

  Definition lane_busy (l : leaf) : node leaf :=
    match vehicle_busy l with
    | Fallback _ _ _ [_; _; n] => n
    | n => n
    end.

  Definition lane_order : list leaf := FollowLane :: selector_order.

  (** Where a leaf of the selector is the one that acts. *)
  Lemma turn_in : forall ls r s l st r' s',
    turn act ls r s = Some (Acts l st r' s') -> In l ls /\ (st = Running \/ st = Success).
  Proof.
    induction ls as [|k ls IH]; intros r s l st r' s' H; cbn in H; [discriminate|].
    destruct (act k r s) as [[[] s1]|]; try discriminate.
    - injection H as <- <- <- <-. split; [left; reflexivity | left; reflexivity].
    - injection H as <- <- <- <-. split; [left; reflexivity | right; reflexivity].
    - destruct (IH _ _ _ _ _ _ H) as [I X]. split; [right; exact I | exact X].
  Qed.

  Lemma turn_app : forall l1 l2 r s,
    turn act (l1 ++ l2)%list r s
    = match turn act l1 r s with
      | Some (NobodyActs r' s') => turn act l2 r' s'
      | o => o
      end.
  Proof.
    induction l1 as [|k l1 IH]; intros l2 r s; [reflexivity|]. cbn [turn app].
    destruct (act k r s) as [[[] s1]|]; try reflexivity. apply IH.
  Qed.

  Lemma lane_busy_selector : forall l, In l selector_order ->
    lane_busy l
    = Fallback "follow_lane_sequence" Running 1 [ Leaf FollowLane Failure; selector_busy l ]
    /\ leaf_eqb FollowLane l = false.
  Proof.
    intros l I. cbn in I.
    destruct I as [<- | [<- | [<- | [<- | [<- | [<- | []]]]]]]; split; reflexivity.
  Qed.

  Lemma halt_selector : forall l, In l selector_order ->
    halt_child (selector_busy l) = selector_free Idle.
  Proof.
    intros l I. cbn in I.
    destruct I as [<- | [<- | [<- | [<- | [<- | [<- | []]]]]]]; reflexivity.
  Qed.

  Lemma before_not_none : forall l, before_vehicle l <> "none".
  Proof. destruct l; discriminate. Qed.

  Lemma leaf_name_not_none : forall l, leaf_name l <> "none".
  Proof. destruct l; discriminate. Qed.

  Lemma lane_tick_free : forall r cur s,
    node_leaves "follow_lane_sequence" before_vehicle lane_busy lane_free_ None
      (turn act lane_order r s)
      (tick leaf_name act (lane_free_ Idle) (Context r cur s)).
  Proof.
    intros r cur s. unfold lane_free_. rewrite tick_fallback.
    rewrite notify_running by discriminate. cbn [turn lane_order run_children].
    step_leaf.
    pose proof (selector_tick_free (dropped FollowLane r) "follow_lane" s0) as H.
    change (leaf_name FollowLane) with "follow_lane".
    destruct (turn act selector_order (dropped FollowLane r) s0) as [[l st r1 s1 | r1 s1]|] eqn:T;
      cbn [node_leaves] in H |- *.
    - destruct (turn_in _ _ _ _ _ _ _ T) as [I [-> | ->]].
      + rewrite H. cbn iota beta. rewrite (proj1 (lane_busy_selector l I)). reflexivity.
      + destruct H as [_ H]. split; [reflexivity|]. rewrite H. cbn iota beta.
        rewrite notify_success_after by discriminate.
        rewrite after_idem by apply before_not_none. reflexivity.
    - rewrite H. cbn iota beta. rewrite notify_fallback_failure by (cbn; tauto). reflexivity.
    - rewrite H. reflexivity.
  Qed.

  Lemma lane_tick_first : forall r cur s, cur <> "none" ->
    node_leaves "follow_lane_sequence" before_vehicle lane_busy lane_free_
      (Some (FollowLane, cur)) (turn act lane_order r s)
      (tick leaf_name act (lane_busy FollowLane) (Context r cur s)).
  Proof.
    intros r cur s N. cbn [lane_busy vehicle_busy]. rewrite tick_fallback.
    rewrite notify_same. cbn [turn lane_order run_children].
    step_leaf.
    pose proof (selector_tick_free (dropped FollowLane r) "follow_lane" s0) as H.
    unfold selector_free in H at 2. change (leaf_name FollowLane) with "follow_lane".
    destruct (turn act selector_order (dropped FollowLane r) s0) as [[l st r1 s1 | r1 s1]|] eqn:T;
      cbn [node_leaves] in H |- *.
    - destruct (turn_in _ _ _ _ _ _ _ T) as [I [-> | ->]];
        destruct (lane_busy_selector l I) as [B NE]; rewrite NE.
      + rewrite H. cbn iota beta. rewrite B. reflexivity.
      + destruct H as [_ H]. split; [reflexivity|]. rewrite H. cbn iota beta.
        rewrite notify_success_after by discriminate.
        rewrite after_idem by apply before_not_none. reflexivity.
    - rewrite H. cbn iota beta. rewrite notify_fallback_failure by (cbn; tauto). reflexivity.
    - rewrite H. reflexivity.
  Qed.

  Lemma lane_tick_selector : forall l r cur s, In l selector_order -> cur <> "none" ->
    node_leaves "follow_lane_sequence" before_vehicle lane_busy lane_free_
      (Some (l, cur)) (turn act (from_on l selector_order) r s)
      (tick leaf_name act (lane_busy l) (Context r cur s)).
  Proof.
    intros l r cur s I N. rewrite (proj1 (lane_busy_selector l I)). rewrite tick_fallback.
    rewrite notify_same. cbn [run_children].
    pose proof (selector_tick_busy l r cur s I N) as H.
    destruct (turn act (from_on l selector_order) r s) as [[k st r1 s1 | r1 s1]|] eqn:T;
      cbn [node_leaves] in H |- *.
    - destruct (turn_in _ _ _ _ _ _ _ T) as [J0 [-> | ->]];
        assert (J : In k selector_order)
          by (cbn in I; destruct I as [<- | [<- | [<- | [<- | [<- | [<- | []]]]]]]; cbn in J0 |- *; tauto);
        destruct (lane_busy_selector k J) as [B NE].
      + rewrite H. cbn iota beta. rewrite B. reflexivity.
      + destruct H as [_ H]. split; [reflexivity|]. rewrite H. cbn iota beta.
        rewrite notify_success_after by discriminate.
        rewrite after_idem; [reflexivity|].
        destruct (leaf_eqb l k); [exact N | apply before_not_none].
    - rewrite H. cbn iota beta. rewrite notify_fallback_failure by (cbn; tauto). reflexivity.
    - rewrite H. reflexivity.
  Qed.

  Definition trajectory_free (st : bt_status) : node leaf :=
    Fallback "follow_trajectory_sequence" st 0 [ Leaf FollowTrajectory Idle ].

  Definition trajectory_busy (_ : leaf) : node leaf :=
    Fallback "follow_trajectory_sequence" Running 0 [ Leaf FollowTrajectory Running ].

  Lemma trajectory_tick_free : forall r cur s,
    node_leaves "follow_trajectory_sequence" before_vehicle trajectory_busy trajectory_free None
      (turn act [FollowTrajectory] r s)
      (tick leaf_name act (trajectory_free Idle) (Context r cur s)).
  Proof.
    intros r cur s. unfold trajectory_free. rewrite tick_fallback.
    rewrite notify_running by discriminate. cbn [turn run_children]. step_leaf.
  Qed.

  Lemma trajectory_tick_busy : forall r cur s, cur <> "none" ->
    node_leaves "follow_trajectory_sequence" before_vehicle trajectory_busy trajectory_free
      (Some (FollowTrajectory, cur)) (turn act [FollowTrajectory] r s)
      (tick leaf_name act (trajectory_busy FollowTrajectory) (Context r cur s)).
  Proof.
    intros r cur s N. unfold trajectory_busy at 2. rewrite tick_fallback.
    rewrite notify_same. cbn [turn run_children]. step_leaf.
  Qed.

  (** ** The vehicle's root *)

  Lemma vehicle_busy_lane : forall l, In l lane_order ->
    vehicle_busy l
    = Fallback "root" Running 2 [ Leaf LaneChange Failure; trajectory_free Failure; lane_busy l ]
    /\ leaf_eqb LaneChange l = false /\ leaf_eqb FollowTrajectory l = false.
  Proof.
    intros l I. cbn in I.
    destruct I as [<- | [<- | [<- | [<- | [<- | [<- | [<- | []]]]]]]]; repeat split.
  Qed.

  Lemma halt_lane : forall l, In l lane_order -> halt_child (lane_busy l) = lane_free_ Idle.
  Proof.
    intros l I. cbn in I.
    destruct I as [<- | [<- | [<- | [<- | [<- | [<- | [<- | []]]]]]]]; reflexivity.
  Qed.

  (** The rest of the root's children from the lane sequence on; [head] are those before it. *)
  Lemma root_lane : forall head i (kept : option (leaf * string)) r cur s,
    head = [ Leaf LaneChange Failure; trajectory_free Failure ] ->
    kept = None \/ (exists k c, kept = Some (k, c) /\ (k = LaneChange \/ k = FollowTrajectory)) ->
    node_leaves "root" before_vehicle vehicle_busy vehicle_free kept (turn act lane_order r s)
      match
        match run_children [lane_free_ Idle] 0 i (Context r cur s) with
        | Some (ks, j, c, x) => Some ((head ++ ks)%list, j, c, x)
        | None => None
        end
      with
      | None => None
      | Some (ks', j, c', Running) => Some (Fallback "root" Running 2 ks', c', Running)
      | Some (ks', _, c', x) =>
          Some (Fallback "root" x O (map halt_child ks'), notify "root" Running x c', x)
      end.
  Proof.
    intros head i kept r cur s -> K. cbn [run_children].
    pose proof (lane_tick_free r cur s) as H.
    destruct (turn act lane_order r s) as [[l st r1 s1 | r1 s1]|] eqn:T;
      cbn [node_leaves] in H |- *.
    - destruct (turn_in _ _ _ _ _ _ _ T) as [I [-> | ->]];
        destruct (vehicle_busy_lane l I) as (B & N1 & N2).
      + rewrite H. cbn iota beta. rewrite B.
        destruct K as [-> | (k & c & -> & [-> | ->])]; rewrite ?N1, ?N2; reflexivity.
      + destruct H as [_ H]. split; [reflexivity|]. rewrite H. cbn iota beta.
        rewrite notify_success_after by discriminate.
        rewrite after_idem by apply before_not_none.
        destruct K as [-> | (k & c & -> & [-> | ->])]; rewrite ?N1, ?N2; reflexivity.
    - rewrite H. cbn iota beta. rewrite notify_fallback_failure by (cbn; tauto). reflexivity.
    - rewrite H. reflexivity.
  Qed.

  Lemma root_trajectory : forall st kept r cur s,
    kept = None \/ (exists c, kept = Some (LaneChange, c)) ->
    st = Failure ->
    node_leaves "root" before_vehicle vehicle_busy vehicle_free kept
      (turn act (FollowTrajectory :: lane_order) r s)
      match
        match run_children [trajectory_free Idle; lane_free_ Idle] 0 1 (Context r cur s) with
        | Some (ks, j, c, x) => Some (Leaf LaneChange st :: ks, j, c, x)
        | None => None
        end
      with
      | None => None
      | Some (ks', j, c', Running) => Some (Fallback "root" Running j ks', c', Running)
      | Some (ks', _, c', x) =>
          Some (Fallback "root" x O (map halt_child ks'), notify "root" Running x c', x)
      end.
  Proof.
    intros st kept r cur s K ->.
    change (FollowTrajectory :: lane_order) with ([FollowTrajectory] ++ lane_order)%list.
    rewrite turn_app. cbn [run_children].
    pose proof (trajectory_tick_free r cur s) as H.
    destruct (turn act [FollowTrajectory] r s) as [[l x r1 s1 | r1 s1]|] eqn:T;
      cbn [node_leaves] in H |- *.
    - destruct (turn_in _ _ _ _ _ _ _ T) as [[<- | []] [-> | ->]].
      + rewrite H. cbn iota beta. destruct K as [-> | (c & ->)]; reflexivity.
      + destruct H as [_ H]. split; [reflexivity|]. rewrite H. cbn iota beta.
        rewrite notify_success_after by discriminate.
        rewrite after_idem by apply before_not_none.
        destruct K as [-> | (c & ->)]; reflexivity.
    - rewrite H. cbn iota beta.
      pose proof (root_lane [ Leaf LaneChange Failure; trajectory_free Failure ] 2 kept r1
                    "follow_trajectory_sequence" s1 eq_refl) as L.
      assert (KK : kept = None
                   \/ (exists k c, kept = Some (k, c) /\ (k = LaneChange \/ k = FollowTrajectory))).
      { destruct K as [-> | (c & ->)]; [left; reflexivity|].
        right. exists LaneChange, c. split; [reflexivity | left; reflexivity]. }
      specialize (L KK). cbn [run_children] in L.
      destruct (tick leaf_name act (lane_free_ Idle)
                  (Context r1 "follow_trajectory_sequence" s1)) as [[[k' c'] x]|] eqn:X;
        [|exact L].
      destruct x; exact L.
    - rewrite H. reflexivity.
  Qed.

  Lemma vehicle_tick_free : forall st r cur s, st <> Running ->
    node_leaves "root" before_vehicle vehicle_busy vehicle_free None (turn act vehicle_order r s)
      (tick leaf_name act (vehicle_free st) (Context r cur s)).
  Proof.
    intros st r cur s NR. unfold vehicle_free. rewrite tick_fallback.
    rewrite notify_running by assumption.
    change vehicle_order with (LaneChange :: FollowTrajectory :: lane_order).
    match goal with |- context [run_children (_ :: ?t) 0 0 _] =>
      change t with [trajectory_free Idle; lane_free_ Idle] end.
    cbn [run_children]. remember (FollowTrajectory :: lane_order) as rest eqn:R. cbn [turn].
    step_leaf. subst rest.
    apply (root_trajectory Failure None (dropped LaneChange r) (leaf_name LaneChange) s0);
      [left; reflexivity | reflexivity].
  Qed.

  Lemma vehicle_tick_lane_change : forall r cur s, cur <> "none" ->
    node_leaves "root" before_vehicle vehicle_busy vehicle_free (Some (LaneChange, cur))
      (turn act vehicle_order r s)
      (tick leaf_name act (vehicle_busy LaneChange) (Context r cur s)).
  Proof.
    intros r cur s N. unfold vehicle_busy at 2. rewrite tick_fallback.
    rewrite notify_same.
    change vehicle_order with (LaneChange :: FollowTrajectory :: lane_order).
    match goal with |- context [run_children (_ :: ?t) 0 0 _] =>
      change t with [trajectory_free Idle; lane_free_ Idle] end.
    cbn [run_children]. remember (FollowTrajectory :: lane_order) as rest eqn:R. cbn [turn].
    step_leaf. subst rest.
    apply (root_trajectory Failure (Some (LaneChange, cur)) (dropped LaneChange r)
             (leaf_name LaneChange) s0); [right; eexists; reflexivity | reflexivity].
  Qed.

  Lemma vehicle_tick_trajectory : forall r cur s, cur <> "none" ->
    node_leaves "root" before_vehicle vehicle_busy vehicle_free (Some (FollowTrajectory, cur))
      (turn act (FollowTrajectory :: lane_order) r s)
      (tick leaf_name act (vehicle_busy FollowTrajectory) (Context r cur s)).
  Proof.
    intros r cur s N. unfold vehicle_busy at 2. rewrite tick_fallback. rewrite notify_same.
    change (FollowTrajectory :: lane_order) with ([FollowTrajectory] ++ lane_order)%list.
    rewrite turn_app.
    match goal with |- context [run_children (?a :: _ :: ?t) 1 0 _] =>
      change t with [lane_free_ Idle] end.
    cbn [run_children].
    pose proof (trajectory_tick_busy r cur s N) as H. unfold trajectory_busy at 2 in H.
    destruct (turn act [FollowTrajectory] r s) as [[l x r1 s1 | r1 s1]|] eqn:T;
      cbn [node_leaves] in H |- *.
    - destruct (turn_in _ _ _ _ _ _ _ T) as [[<- | []] [-> | ->]].
      + rewrite H. reflexivity.
      + destruct H as [_ H]. split; [reflexivity|]. rewrite H. cbn iota beta.
        rewrite notify_success_after by discriminate.
        rewrite after_idem by (cbn; assumption). reflexivity.
    - rewrite H. cbn iota beta.
      pose proof (root_lane [ Leaf LaneChange Failure; trajectory_free Failure ] 2
                    (Some (FollowTrajectory, cur)) r1
                    "follow_trajectory_sequence" s1 eq_refl) as L.
      specialize (L (or_intror (ex_intro _ _ (ex_intro _ _ (conj eq_refl (or_intror eq_refl)))))).
      cbn [run_children] in L.
      destruct (tick leaf_name act (lane_free_ Idle)
                  (Context r1 "follow_trajectory_sequence" s1)) as [[[k' c'] x]|] eqn:X;
        [|exact L].
      destruct x; exact L.
    - rewrite H. reflexivity.
  Qed.

  Lemma lane_tick_busy : forall l r cur s, In l lane_order -> cur <> "none" ->
    node_leaves "follow_lane_sequence" before_vehicle lane_busy lane_free_
      (Some (l, cur)) (turn act (from_on l lane_order) r s)
      (tick leaf_name act (lane_busy l) (Context r cur s)).
  Proof.
    intros l r cur s [<- | I] N; [apply lane_tick_first; exact N|].
    assert (X : from_on l lane_order = from_on l selector_order)
      by (cbn [lane_order from_on]; rewrite (proj2 (lane_busy_selector l I)); reflexivity).
    rewrite X. apply lane_tick_selector; assumption.
  Qed.

  Lemma vehicle_tick_lane : forall l r cur s, In l lane_order -> cur <> "none" ->
    node_leaves "root" before_vehicle vehicle_busy vehicle_free (Some (l, cur))
      (turn act (from_on l lane_order) r s)
      (tick leaf_name act (vehicle_busy l) (Context r cur s)).
  Proof.
    intros l r cur s I N. rewrite (proj1 (vehicle_busy_lane l I)). rewrite tick_fallback.
    rewrite notify_same. cbn [run_children].
    pose proof (lane_tick_busy l r cur s I N) as H.
    destruct (turn act (from_on l lane_order) r s) as [[k st r1 s1 | r1 s1]|] eqn:T;
      cbn [node_leaves] in H |- *.
    - destruct (turn_in _ _ _ _ _ _ _ T) as [J0 [-> | ->]];
        assert (J : In k lane_order)
          by (cbn in I; destruct I as [<- | [<- | [<- | [<- | [<- | [<- | [<- | []]]]]]]];
              cbn in J0 |- *; tauto);
        destruct (vehicle_busy_lane k J) as (B & _).
      + rewrite H. cbn iota beta. rewrite B. reflexivity.
      + destruct H as [_ H]. split; [reflexivity|]. rewrite H. cbn iota beta.
        rewrite notify_success_after by discriminate.
        rewrite after_idem; [reflexivity|].
        destruct (leaf_eqb l k); [exact N | apply before_not_none].
    - rewrite H. cbn iota beta. rewrite notify_fallback_failure by (cbn; tauto). reflexivity.
    - rewrite H. reflexivity.
  Qed.

  Lemma after_name : forall l r, after (leaf_name l) r = dropped l r.
  Proof. destruct l, r; reflexivity. Qed.

  Lemma after_before : forall l r, after (before_vehicle l) r = r.
  Proof. destruct l, r; reflexivity. Qed.

  (** The vehicle's tree does what the ordered list says. *)
  Lemma vehicle_tick : forall q t cur r s,
    vehicle_at q t cur ->
    leaves before_vehicle vehicle_at q (turn act (consulted vehicle_order q) r s)
      (tick leaf_name act t (Context r cur s)).
  Proof.
    intros q t cur r s A. destruct q as [|l].
    - destruct A as (st & NR & ->). cbn [consulted].
      pose proof (vehicle_tick_free st r cur s NR) as H.
      destruct (turn act vehicle_order r s) as [[l x r1 s1 | r1 s1]|] eqn:T;
        cbn [node_leaves leaves] in H |- *.
      + destruct (turn_in _ _ _ _ _ _ _ T) as [I [-> | ->]].
        * exists (vehicle_busy l). split; [exact H|]. repeat split. exact I.
        * destruct H as [_ H]. split; [reflexivity|]. exists (vehicle_free Success).
          rewrite after_before in H. split; [exact H|]. exists Success. split; [discriminate | reflexivity].
      + exists (vehicle_free Failure). split; [exact H|]. exists Failure.
        split; [discriminate | reflexivity].
      + exact H.
    - destruct A as (I & -> & ->). cbn [consulted].
      assert (H : node_leaves "root" before_vehicle vehicle_busy vehicle_free
                    (Some (l, leaf_name l)) (turn act (from_on l vehicle_order) r s)
                    (tick leaf_name act (vehicle_busy l) (Context r (leaf_name l) s))).
      { destruct I as [<- | [<- | I]].
        - apply vehicle_tick_lane_change. discriminate.
        - apply vehicle_tick_trajectory. discriminate.
        - destruct (vehicle_busy_lane l I) as (_ & N1 & N2).
          change vehicle_order with (LaneChange :: FollowTrajectory :: lane_order).
          cbn [from_on]. rewrite N1, N2.
          apply vehicle_tick_lane; [exact I | apply leaf_name_not_none]. }
      destruct (turn act (from_on l vehicle_order) r s) as [[k x r1 s1 | r1 s1]|] eqn:T;
        cbn [node_leaves leaves] in H |- *.
      + destruct (turn_in _ _ _ _ _ _ _ T) as [J0 [-> | ->]];
          assert (J : In k vehicle_order)
            by (cbn in I; destruct I as [<- | [<- | [<- | [<- | [<- | [<- | [<- | [<- | [<- | []]]]]]]]]];
                cbn in J0 |- *; tauto).
        * exists (vehicle_busy k). split; [|repeat split; exact J]. rewrite H.
          assert (LE : forall a b, leaf_eqb a b = true -> a = b) by (destruct a, b; easy).
          destruct (leaf_eqb l k) eqn:X; [|reflexivity]. rewrite (LE l k X). reflexivity.
        * destruct H as [_ H]. split; [reflexivity|]. exists (vehicle_free Success).
          split; [|exists Success; split; [discriminate | reflexivity]]. rewrite H.
          assert (LE : forall a b, leaf_eqb a b = true -> a = b) by (destruct a, b; easy).
          destruct (leaf_eqb l k) eqn:X.
          -- rewrite (LE l k X), after_name. reflexivity.
          -- rewrite after_before. reflexivity.
      + exists (vehicle_free Failure). split; [exact H|]. exists Failure.
        split; [discriminate | reflexivity].
      + exact H.
  Qed.

  (** ** The pedestrian's tree *)

  Lemma pedestrian_trajectory_tick : forall st r cur s, st = Idle \/ st = Running /\ cur <> "none" ->
    node_leaves "follow_trajectory_sequence" before_pedestrian trajectory_busy trajectory_free
      (match st with Idle => None | _ => Some (FollowTrajectory, cur) end)
      (turn act [FollowTrajectory] r s)
      (tick leaf_name act (Fallback "follow_trajectory_sequence" st 0 [ Leaf FollowTrajectory st ])
         (Context r cur s)).
  Proof.
    intros st r cur s [-> | [-> N]]; rewrite tick_fallback;
      rewrite ?notify_same; rewrite ?notify_running by discriminate;
      cbn [turn run_children]; step_leaf.
  Qed.

  Lemma after_walk : forall r, after "follow_lane" (dropped FollowLane r) = dropped FollowLane r.
  Proof. destruct r; reflexivity. Qed.

  Ltac pedestrian_result :=
    match goal with
    | |- exists t, Some (?x, ?c, ?y) = _ /\ _ =>
        exists x; split; [reflexivity|]; cbn [pedestrian_at at_position];
        first [ (repeat split; cbn; tauto)
              | (exists Success; split; [discriminate | reflexivity])
              | (exists Failure; split; [discriminate | reflexivity]) ]
    end.

  Ltac pedestrian_last :=
    match goal with
    | |- context [tick leaf_name act (Fallback _ ?st 0 _) (Context ?r ?cur ?s)] =>
        let H := fresh "H" in
        assert (H := pedestrian_trajectory_tick st r cur s
                       ltac:(first [ left; reflexivity | right; split; [reflexivity | discriminate] ]));
        cbn [turn] in H; revert H; destruct (act FollowTrajectory r s) as [[[] ?]|];
        cbn [node_leaves]; intros H; try match type of H with _ /\ _ => destruct H as [_ H] end; rewrite ?H;
        cbn iota beta;
        rewrite ?notify_fallback_failure by (cbn; tauto);
        rewrite ?notify_success_after by discriminate;
        rewrite ?after_idem by discriminate
    end.

  (** The pedestrian's tree does what the ordered list says. *)
  Lemma pedestrian_tick : forall q t cur r s,
    pedestrian_at q t cur ->
    leaves before_pedestrian pedestrian_at q (turn act (consulted pedestrian_order q) r s)
      (tick leaf_name act t (Context r cur s)).
  Proof.
    assert (AB : forall r, after "follow_trajectory_sequence" r = r) by (destruct r; reflexivity).
    assert (AR : forall r, after "root" r = r) by (destruct r; reflexivity).
    assert (NF : forall st, st <> Running -> exists x, x <> Running /\ pedestrian_free st = pedestrian_free x)
      by (intros st X; exists st; split; [exact X | reflexivity]).
    intros q t cur r s A. destruct q as [|l].
    - destruct A as (st & NR & ->). unfold consulted, pedestrian_order.
      unfold pedestrian_free. rewrite tick_fallback. rewrite notify_running by assumption.
      cbn [turn run_children]. step_leaf.
      + cbn [leaves]. pedestrian_result.
      + cbn [leaves]. split; [reflexivity|]. cbn [before_pedestrian]. rewrite AR. pedestrian_result.
      + step_leaf.
        * cbn [leaves]. pedestrian_result.
        * cbn [leaves]. split; [reflexivity|]. cbn [before_pedestrian].
          change (leaf_name FollowLane) with "follow_lane". rewrite after_walk. pedestrian_result.
        * pedestrian_last; cbn [leaves]; try exact H; try reflexivity.
          -- pedestrian_result.
          -- split; [reflexivity|]. cbn [before_pedestrian]. rewrite AB. pedestrian_result.
          -- pedestrian_result.
    - destruct A as (I & -> & ->). cbn in I. destruct I as [<- | [<- | [<- | []]]];
        unfold consulted, pedestrian_order; cbn [pedestrian_busy from_on leaf_eqb];
        rewrite tick_fallback, notify_same; cbn [turn run_children].
      + step_leaf.
        * cbn [leaves]. pedestrian_result.
        * cbn [leaves]. split; [reflexivity|]. rewrite after_name. pedestrian_result.
        * step_leaf.
          -- cbn [leaves]. pedestrian_result.
          -- cbn [leaves]. split; [reflexivity|]. cbn [before_pedestrian leaf_eqb].
             change (leaf_name FollowLane) with "follow_lane". rewrite after_walk. pedestrian_result.
          -- pedestrian_last; cbn [leaves]; try exact H; try reflexivity.
             ++ pedestrian_result.
             ++ split; [reflexivity|]. cbn [before_pedestrian leaf_eqb]. rewrite AB. pedestrian_result.
             ++ pedestrian_result.
      + step_leaf.
        * cbn [leaves]. pedestrian_result.
        * cbn [leaves]. split; [reflexivity|]. rewrite after_name. pedestrian_result.
        * pedestrian_last; cbn [leaves]; try exact H; try reflexivity.
          -- pedestrian_result.
          -- split; [reflexivity|]. cbn [before_pedestrian leaf_eqb]. rewrite AB. pedestrian_result.
          -- pedestrian_result.
      + pedestrian_last; cbn [leaves]; try exact H; try reflexivity.
        * cbn [leaf_eqb]. pedestrian_result.
        * split; [reflexivity|]. cbn [leaf_eqb].
          change "follow_polyline_trajectory" with (leaf_name FollowTrajectory). rewrite after_name.
          pedestrian_result.
        * pedestrian_result.
  Qed.
End Refinement.
