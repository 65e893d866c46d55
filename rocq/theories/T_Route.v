(** * Theorems about routes, following a trajectory as the ego, and respawning (C184-C190). *)
From Coq Require Import String List Bool ZArith Reals Lia Lra.
From Verif Require Import M_Status S_Status T_Status M_Route S_Route.
Import ListNotations.
Local Open Scope Z_scope.

(** ** Lemmas *)

Lemma last_app1 : forall {A} (l : list A) a d, last (l ++ [a]) d = a.
Proof. intros A l a d. apply last_last. Qed.
Lemma begin_sent : forall c g,
  g_sent (begin_route c (send Clear g)) = g_sent g ++ asked g c /\
  otherwise_same g (begin_route c (send Clear g)).
Proof.
  intros c g. unfold begin_route, asked, initialize, otherwise_same. cbn [send g_initialized].
  destruct (g_initialized g) eqn:E; cbn; rewrite <- ?app_assoc; cbn; repeat split; assumption.
Qed.
Lemma unique_head : forall a l, hd_error (unique (a :: l)) = Some a.
Proof.
  intros a l. revert a. induction l as [|b l IH]; intros a; [reflexivity|].
  change (unique (a :: b :: l)) with (if a =? b then unique (b :: l) else a :: unique (b :: l)).
  destruct (Z.eqb_spec a b) as [->|N]; [apply IH|reflexivity].
Qed.
Lemma unique_last : forall l d, last (unique l) d = last l d.
Proof.
  induction l as [|a l IH]; intros d; [reflexivity|]. destruct l as [|b l]; [reflexivity|].
  change (unique (a :: b :: l)) with (if a =? b then unique (b :: l) else a :: unique (b :: l)).
  change (last (a :: b :: l) d) with (last (b :: l) d). destruct (a =? b); [apply IH|].
  rewrite <- IH. pose proof (unique_head b l) as H. destruct (unique (b :: l)); [discriminate|reflexivity].
Qed.
Lemma unique_path : forall enter l, path (fun a b => a = b \/ enter a b) l -> path enter (unique l).
Proof.
  intros enter. induction l as [|a l IH]; [trivial|]. destruct l as [|b l]; [trivial|].
  intros [H P].
  change (unique (a :: b :: l)) with (if a =? b then unique (b :: l) else a :: unique (b :: l)).
  specialize (IH P). destruct (Z.eqb_spec a b) as [->|N]; [exact IH|].
  pose proof (unique_head b l) as Hh. destruct (unique (b :: l)) as [|c t]; [discriminate|].
  injection Hh as ->. split; [destruct H; [contradiction|assumption]|exact IH].
Qed.
Lemma unique_no_repetition : forall l, no_repetition (unique l).
Proof.
  induction l as [|a l IH]; [intros [|? ?] ? ? ? H; discriminate|].
  destruct l as [|b l]; [intros [|? [|? ?]] ? ? ? H; discriminate|].
  change (unique (a :: b :: l)) with (if a =? b then unique (b :: l) else a :: unique (b :: l)).
  destruct (Z.eqb_spec a b) as [->|N]; [exact IH|].
  pose proof (unique_head b l) as Hh. destruct (unique (b :: l)) as [|c t]; [discriminate|].
  injection Hh as ->. intros before x y after H. destruct before as [|z before]; cbn [app] in H.
  - injection H as <- <- _. exact N.
  - injection H as _ H. exact (IH _ _ _ _ H).
Qed.
Lemma visits_in : forall l ids, visits l ids -> forall a, visits (a :: l) ids.
Proof. intros. apply visits_later. assumption. Qed.
Lemma unique_visits : forall l ids, visits l ids -> visits (unique l) ids.
Proof.
  induction l as [|a l IH]; intros ids V; [exact V|]. destruct l as [|b l]; [exact V|].
  change (unique (a :: b :: l)) with (if a =? b then unique (b :: l) else a :: unique (b :: l)).
  remember (a :: b :: l) as L eqn:E. induction V as [|x m ids V IHV|x m ids V IHV].
  - apply visits_nil.
  - specialize (IHV E). injection E as -> ->. destruct (Z.eqb_spec a b) as [->|N].
    + pose proof (unique_head b l) as Hh. destruct (unique (b :: l)); [discriminate|]. injection Hh as ->.
      apply visits_here. exact IHV.
    + apply visits_here. exact IHV.
  - injection E as -> ->. specialize (IH ids V). destruct (a =? b); [exact IH|apply visits_later; exact IH].
Qed.
Lemma path_weaken : forall (r s : Z -> Z -> Prop), (forall a b, r a b -> s a b) ->
  forall l, path r l -> path s l.
Proof.
  intros r s H l. induction l as [|a l IH]; [trivial|]. destruct l as [|b l]; [trivial|].
  intros [X Y]. split; [apply H; exact X|apply IH; exact Y].
Qed.
Lemma path_glue : forall enter l m d, l <> [] -> path (fun a b => a = b \/ enter a b) l ->
  path enter m -> hd_error m = Some (last l d) ->
  path (fun a b => a = b \/ enter a b) (l ++ m).
Proof.
  intros enter. induction l as [|a l IH]; intros m d NE P Q H; [contradiction|].
  destruct l as [|b l].
  - destruct m as [|c m]; [discriminate|]. injection H as ->. cbn [app last].
    split; [left; reflexivity|]. eapply path_weaken; [|exact Q]. intros; right; assumption.
  - destruct P as [X P]. split; [exact X|]. apply (IH m d); [discriminate|exact P|exact Q|exact H].
Qed.
Lemma visits_app_l : forall m l ids, visits l ids -> visits (m ++ l) ids.
Proof. induction m as [|a m IH]; intros l ids V; [exact V|]. apply visits_later, IH, V. Qed.
Lemma visits_end : forall l ids x, visits l ids -> l <> [] -> visits (l ++ [x]) (ids ++ [x]).
Proof.
  intros l ids x V. induction V as [l|a l ids V IH|a l ids V IH]; intros NE.
  - apply visits_app_l. apply visits_here, visits_nil.
  - cbn. apply visits_here. apply IH, NE.
  - cbn. destruct l as [|b l].
    + inversion V; subst. cbn. apply visits_later, visits_here, visits_nil.
    + apply visits_later. apply IH. discriminate.
Qed.
Lemma visits_extend : forall l ids m, visits l ids -> visits (l ++ m) ids.
Proof.
  intros l ids m V. induction V as [l|a l ids V IH|a l ids V IH].
  - apply visits_nil.
  - cbn. apply visits_here, IH.
  - cbn. apply visits_later, IH.
Qed.
Lemma snoc_of : forall {A} (l : list A) d, l <> [] -> l = removelast l ++ [last l d].
Proof. intros A l d H. apply app_removelast_last. exact H. Qed.
Lemma last_app : forall {A} (l m : list A) d e, m <> [] -> last (l ++ m) d = last m e.
Proof.
  intros A l m d e NE. rewrite (snoc_of m e NE), app_assoc, !last_last. reflexivity.
Qed.
Lemma last_indep : forall {A} (l : list A) d e, l <> [] -> last l d = last l e.
Proof. intros A l d e NE. rewrite (snoc_of l e NE), !last_last. reflexivity. Qed.

Lemma segments_way : forall enter graph, ways enter graph -> forall route acc x done,
  acc <> [] -> last acc x = x -> path (fun a b => a = b \/ enter a b) acc -> visits acc done ->
  connected graph x (map l_id route) ->
  let r := segments graph acc x route in
  (exists more, r = acc ++ more) /\
  path (fun a b => a = b \/ enter a b) r /\ visits r (done ++ map l_id route) /\
  last r x = last (map l_id route) x.
Proof.
  intros enter graph W. induction route as [|p route IH]; intros acc x done NE L P V C; cbn.
  - split; [exists []; rewrite app_nil_r; reflexivity|]. rewrite app_nil_r. repeat split; assumption.
  - destruct C as [NG C]. destruct (W _ _ NG) as (H & G & Q).
    set (acc' := acc ++ graph x (l_id p)) in *.
    assert (La : forall d, last acc' d = l_id p).
    { intros d. unfold acc'. rewrite (last_app _ _ d x NG). exact G. }
    rewrite La.
    assert (NE' : acc' <> []) by (unfold acc'; intros E; apply app_eq_nil in E; destruct E; contradiction).
    destruct (IH acc' (l_id p) (done ++ [l_id p])) as ((more & E) & P' & V' & L').
    + exact NE'.
    + apply La.
    + apply (path_glue enter acc (graph x (l_id p)) x NE P Q). rewrite L. exact H.
    + unfold acc'. rewrite (snoc_of (graph x (l_id p)) x NG), G, app_assoc. apply visits_end.
      * apply visits_extend. exact V.
      * intros E. apply app_eq_nil in E. destruct E; contradiction.
    + exact C.
    + split; [exists (graph x (l_id p) ++ more); rewrite E; unfold acc'; rewrite <- app_assoc; reflexivity|].
      split; [exact P'|]. rewrite <- app_assoc in V'. split; [exact V'|].
      rewrite (last_indep _ x (l_id p)).
      * rewrite L'. destruct route; [reflexivity|]. cbn [map]. apply (last_indep (l_id l :: map l_id route)). discriminate.
      * rewrite E. intros E'. apply app_eq_nil in E'. destruct E'; contradiction.
Qed.

(** ** C184: a route for the ego, by poses. *)

Section Routes.
  Variable graph : Z -> Z -> list Z.
  Variable on_map : lane_pose -> pose.
  Variable found : pose -> option lane_pose.
  Variable found_by : entity -> pose -> option lane_pose.

  (** Autoware is asked to drive to the last place through exactly the others in their order, and may
      change the goal exactly if the option says so. *)
  Theorem C184_points : forall g o route through goal, o_lanes o = false -> split_route route through goal ->
    exists g', ego_assign_poses graph on_map found g o route = Ok g' /\ otherwise_same g g' /\
               g_sent g' = g_sent g ++ asked g (PlanPoints goal through (o_modify o)).
  Proof.
    intros g o route through goal O ->. unfold ego_assign_poses. rewrite O. unfold assign_points.
    destruct (through ++ [goal]) as [|p r] eqn:E; [destruct through; discriminate|]. rewrite <- E.
    rewrite last_last, removelast_last. eexists. split; [reflexivity|].
    destruct (begin_sent (PlanPoints goal through (o_modify o)) g). split; assumption.
  Qed.
  Theorem C184_lanes : forall g o route through goal, o_lanes o = false -> split_route route through goal ->
    exists g', ego_assign graph on_map g o route = Ok g' /\ otherwise_same g g' /\
               g_sent g' = g_sent g ++
                           asked g (PlanPoints (on_map goal) (map on_map through) (o_modify o)).
  Proof.
    intros g o route through goal O ->. unfold ego_assign. rewrite O, map_app.
    destruct (C184_points g o _ (map on_map through) (on_map goal) O eq_refl) as (g' & E & R).
    exists g'. unfold ego_assign_poses in E. rewrite O in E. split; [exact E|exact R].
  Qed.
  (** A single position is the goal. *)
  Theorem C184_position : forall g o, o_lanes o = false ->
    (forall p, exists g', request graph on_map found found_by (AEgo g) (ToPose p) o = Ok (AEgo g') /\
       otherwise_same g g' /\ g_sent g' = g_sent g ++ asked g (PlanPoints p [] (o_modify o))) /\
    (forall l, exists g', request graph on_map found found_by (AEgo g) (ToLane l) o = Ok (AEgo g') /\
       otherwise_same g g' /\ g_sent g' = g_sent g ++ asked g (PlanPoints (on_map l) [] (o_modify o))).
  Proof.
    intros g o O. split; [intros p|intros l].
    - destruct (C184_points g o [p] [] p O eq_refl) as (g' & E & R). exists g'. cbn [request].
      unfold ego_acquire_pose. rewrite E. split; [reflexivity|exact R].
    - destruct (C184_lanes g o [l] [] l O eq_refl) as (g' & E & R). exists g'. cbn [request].
      unfold ego_acquire. rewrite E. split; [reflexivity|exact R].
  Qed.

  (** However many routes are requested, in whatever way: Autoware is told where it is exactly once, by
      the first of them that is accepted, and before it is given any route. *)
  Fixpoint requests (g : ego) (l : list (target * options)) : result ego :=
    match l with
    | [] => Ok g
    | (t, o) :: l' =>
        match request graph on_map found found_by (AEgo g) t o with
        | Ok (AEgo g') => requests g' l'
        | Error (AEgo g') => Error g'
        | _ => Undefined
        end
    end.
  Lemma request_ok : forall g t o a, request graph on_map found found_by (AEgo g) t o = Ok a ->
    exists g' plan, a = AEgo g' /\ is_initialize plan = false /\
      g_sent g' = g_sent g ++ asked g plan /\ otherwise_same g g'.
  Proof.
    intros g t o a H.
    assert (P : forall m route b, assign_points g m route = Ok b -> exists plan, is_initialize plan = false /\
      g_sent b = g_sent g ++ asked g plan /\ otherwise_same g b).
    { intros m route b E. unfold assign_points in E. destruct route; [discriminate|]. injection E as <-.
      match goal with |- context [begin_route ?c] => exists c; destruct (begin_sent c g) end.
      split; [reflexivity|split; assumption]. }
    assert (Q : forall m route b, assign_lanes graph on_map g m route = Ok b ->
      exists plan, is_initialize plan = false /\ g_sent b = g_sent g ++ asked g plan /\ otherwise_same g b).
    { intros m route b E. unfold assign_lanes in E. destruct route; [discriminate|].
      destruct (e_lane (g_entity g)); [|discriminate]. injection E as <-.
      match goal with |- context [begin_route ?c] => exists c; destruct (begin_sent c g) end.
      split; [reflexivity|split; assumption]. }
    assert (R : forall r : result ego,
      (forall b, r = Ok b -> exists plan, is_initialize plan = false /\
         g_sent b = g_sent g ++ asked g plan /\ otherwise_same g b) ->
      lift AEgo r = Ok a ->
      exists g' plan, a = AEgo g' /\ is_initialize plan = false /\
        g_sent g' = g_sent g ++ asked g plan /\ otherwise_same g g').
    { intros r K L. destruct r as [b| |]; try discriminate. injection L as <-.
      destruct (K b eq_refl) as (plan & K1 & K2 & K3). exists b, plan. repeat split; try assumption; apply K3. }
    cbn [request] in H. destruct t; (refine (R _ _ H); intros b E;
      unfold ego_acquire_pose, ego_acquire, ego_assign_poses, ego_assign in E;
      destruct (o_lanes o); [exact (Q _ _ _ E)|exact (P _ _ _ E)]).
  Qed.
  Lemma requests_initialized : forall l g g', requests g l = Ok g' -> g_initialized g = true ->
    exists more, g_sent g' = g_sent g ++ more /\ filter is_initialize more = [].
  Proof.
    induction l as [|[t o] l IH]; intros g g' H I; cbn [requests] in H.
    - injection H as <-. exists []. rewrite app_nil_r. split; reflexivity.
    - destruct (request graph on_map found found_by (AEgo g) t o) as [a| [] |] eqn:E; try discriminate.
      destruct (request_ok _ _ _ _ E) as (g1 & plan & -> & N & S & O).
      destruct (IH g1 g' H) as (more & M & F); [apply O|]. unfold asked in S. rewrite I in S.
      exists ([Clear; plan; Engage] ++ more). rewrite M, S, <- app_assoc. split; [reflexivity|].
      cbn [app filter is_initialize]. rewrite N. exact F.
  Qed.
  Theorem C184_once : forall l g g', requests g l = Ok g' -> l <> [] -> g_initialized g = false ->
    exists plan more, g_sent g' = g_sent g ++ [Clear; Initialize (s_pose (e_status (g_entity g))); plan] ++ more /\
                      is_initialize plan = false /\ filter is_initialize more = [].
  Proof.
    intros [|[t o] l] g g' H NE I; [contradiction|]. cbn [requests] in H.
    destruct (request graph on_map found found_by (AEgo g) t o) as [a| [] |] eqn:E; try discriminate.
    destruct (request_ok _ _ _ _ E) as (g1 & plan & -> & N & S & O).
    destruct (requests_initialized _ _ _ H) as (more & M & F); [apply O|].
    unfold asked in S. rewrite I in S. exists plan, more. rewrite M, S, <- app_assoc.
    split; [reflexivity|split; assumption].
  Qed.

  (** ** C185: a route for the ego, by lanelets. *)

  (** If every place can be reached from the one before, Autoware is given lanelets of which each can be
      entered from the one before, from the ego's own to that of the goal, through those of all the places
      in their order, none of them twice in a row. *)
  Theorem C185_lanes : forall enter g o route through goal l, ways enter graph -> o_lanes o = true ->
    split_route route through goal -> e_lane (g_entity g) = Some l ->
    connected graph (l_id l) (map l_id route) ->
    exists g' lanes, ego_assign graph on_map g o route = Ok g' /\ otherwise_same g g' /\
      g_sent g' = g_sent g ++ asked g (PlanLanes (on_map goal) lanes (o_modify o)) /\
      hd_error lanes = Some (l_id l) /\ last lanes (l_id l) = l_id goal /\ path enter lanes /\
      visits lanes (map l_id route) /\ no_repetition lanes.
  Proof.
    intros enter g o route through goal l W O Hs L C. unfold split_route in Hs. subst route.
    unfold ego_assign. rewrite O. unfold assign_lanes.
    rewrite L. destruct (through ++ [goal]) as [|p r] eqn:E; [destruct through; discriminate|].
    rewrite <- E. rewrite <- E in C. rewrite last_last.
    destruct (segments_way enter graph W (through ++ [goal]) [l_id l] (l_id l) [])
      as ((more & S) & P & V & La); [discriminate|reflexivity|exact Logic.I|apply visits_nil|exact C|].
    set (segs := segments graph [l_id l] (l_id l) (through ++ [goal])) in *.
    eexists. exists (unique segs). split; [reflexivity|].
    destruct (begin_sent (PlanLanes (on_map goal) (unique segs) (o_modify o)) g) as [B1 B2].
    split; [exact B2|]. split; [exact B1|].
    split; [rewrite S; apply unique_head|].
    split; [rewrite unique_last, La, map_app; apply last_last|].
    split; [apply unique_path; exact P|]. split; [apply unique_visits; exact V|apply unique_no_repetition].
  Qed.
  (** The ego is on no lanelet: the request is refused, and the route Autoware has is left as it is. *)
  Theorem C185_off_lane : forall g o route, o_lanes o = true -> route <> [] -> e_lane (g_entity g) = None ->
    ego_assign graph on_map g o route = Error g.
  Proof.
    intros g o route O NE L. unfold ego_assign. rewrite O. unfold assign_lanes. rewrite L.
    destruct route; [contradiction|reflexivity].
  Qed.
  (** Poses that all match a lanelet are treated like those lanelet poses. *)
  Theorem C185_matched : forall g o route lanes, o_lanes o = true ->
    Forall2 (fun p l => found p = Some l) route lanes ->
    ego_assign_poses graph on_map found g o route = ego_assign graph on_map g o lanes.
  Proof.
    intros g o route lanes O F. unfold ego_assign_poses, ego_assign. rewrite O. f_equal.
    induction F as [|p l route lanes H F IH]; [reflexivity|]. cbn. rewrite H. f_equal. exact IH.
  Qed.

  (** Poses that match no lanelet are passed over. *)
  Theorem C185_skipped : forall g o route lanes, o_lanes o = true -> picked found route lanes ->
    ego_assign_poses graph on_map found g o route = ego_assign graph on_map g o lanes.
  Proof.
    intros g o route lanes O F. unfold ego_assign_poses, ego_assign. rewrite O. f_equal.
    induction F as [|p l route lanes H F IH|p route lanes H F IH]; [reflexivity| |]; cbn; rewrite H;
      [f_equal|]; exact IH.
  Qed.

  (** ** C186: a route for a vehicle or a pedestrian. *)

  (** On a lane: exactly the requested places become its waypoints and goals, and it follows lanes. *)
  Theorem C186_on_lane : forall n l, e_lane (n_entity n) = Some l ->
    (forall goal, npc_acquire on_map n goal =
       Ok {| n_entity := n_entity n; n_wish := FollowLane; n_waypoints := [goal]; n_goals := [on_map goal] |}) /\
    (forall route, npc_assign on_map n route =
       Ok {| n_entity := n_entity n; n_wish := FollowLane; n_waypoints := route;
             n_goals := map on_map route |}) /\
    (forall route lanes, Forall2 (fun p x => found_by (n_entity n) p = Some x) route lanes ->
       npc_assign_poses on_map found_by n route =
       Ok {| n_entity := n_entity n; n_wish := FollowLane; n_waypoints := lanes;
             n_goals := map on_map lanes |}).
  Proof.
    intros n l L. split; [|split].
    - intros goal. unfold npc_acquire. rewrite L. reflexivity.
    - intros route. unfold npc_assign. rewrite L. reflexivity.
    - intros route lanes F. unfold npc_assign_poses.
      replace (all_found found_by (n_entity n) route) with (Some lanes).
      + unfold npc_assign. rewrite L. reflexivity.
      + induction F as [|p x route lanes H F IH]; [reflexivity|]. cbn. rewrite H, <- IH. reflexivity.
  Qed.
  (** A place that is on no lane is refused, and neither waypoints nor goals change. *)
  Theorem C186_refused : forall n route p, In p route -> found_by (n_entity n) p = None ->
    npc_assign_poses on_map found_by n route = Error n /\
    exists n', npc_acquire_pose on_map found_by n p = Error n' /\ n_waypoints n' = n_waypoints n /\
               n_goals n' = n_goals n /\ n_entity n' = n_entity n.
  Proof.
    intros n route p I F. split.
    - unfold npc_assign_poses. replace (all_found found_by (n_entity n) route) with (@None (list lane_pose)); [reflexivity|].
      induction route as [|q route IH]; [contradiction|]. cbn. destruct I as [->|I].
      + rewrite F. reflexivity.
      + rewrite <- (IH I). destruct (found_by (n_entity n) q); reflexivity.
    - unfold npc_acquire_pose. cbn. rewrite F. eexists. repeat split.
  Qed.

  (** ** C189: what the actors of an action are asked. *)

  (** Every actor is asked with its own permission to change the goal: the property of its controller if it
      has one, or else the parameter, or else no. *)
  Theorem C189_each : forall lanes parameter t actors r,
    act graph on_map found found_by lanes parameter t actors = Ok r ->
    Forall2 (fun '(a, property) a' =>
      exists modify, request graph on_map found found_by a t
                       {| o_modify := modify; o_lanes := match lanes with Some true => true | _ => false end |} = Ok a' /\
                     (forall b, property = Some b -> modify = b) /\
                     (property = None -> forall b, parameter = Some b -> modify = b) /\
                     (property = None -> parameter = None -> modify = false)) actors r.
  Proof.
    intros lanes parameter t. induction actors as [|[a property] rest IH]; intros r H; cbn [act] in H.
    - injection H as <-. constructor.
    - replace (match lanes with Some b => b | None => false end) with
        (match lanes with Some true => true | _ => false end) in H by (destruct lanes as [[]|]; reflexivity).
      match type of H with context [request _ _ _ _ _ _ ?o] =>
        destruct (request graph on_map found found_by a t o) as [a'| |] eqn:E; try discriminate end.
      destruct (act graph on_map found found_by lanes parameter t rest) as [r'| |]; try discriminate.
      injection H as <-. constructor; [|apply IH; reflexivity].
      exists (modification property parameter). split; [exact E|].
      split; [intros b ->; reflexivity|]. split; [intros -> b ->; reflexivity|intros -> ->; reflexivity].
  Qed.
  (** An actor that refuses ends the action: those before it have been asked, those after it are as they
      were. *)
  Theorem C189_refused : forall lanes parameter t before a property after r a' options,
    act graph on_map found found_by lanes parameter t before = Ok r ->
    options = {| o_modify := modification property parameter;
                 o_lanes := match lanes with Some b => b | None => false end |} ->
    request graph on_map found found_by a t options = Error a' ->
    act graph on_map found found_by lanes parameter t (before ++ (a, property) :: after) =
    Error (r ++ a' :: map fst after).
  Proof.
    intros lanes parameter t. induction before as [|[b q] before IH]; intros a property after r a' options H -> E.
    - injection H as <-. cbn [app act]. rewrite E. reflexivity.
    - cbn [app act] in *. destruct (request graph on_map found found_by b t _) as [b'| |]; try discriminate.
      destruct (act graph on_map found found_by lanes parameter t before) as [r'| |]; try discriminate.
      injection H as <-. rewrite (IH a property after r' a' _ eq_refl eq_refl E). reflexivity.
  Qed.
  (** Objects have no routes. *)
  Theorem C189_objects : forall t o, request graph on_map found found_by AMisc t o = Error AMisc.
  Proof. reflexivity. Qed.
End Routes.

(** ** C188: a new route while driving. *)

Theorem C188_replan : forall g modify goal,
  exists g', replan g modify [goal] = Ok g' /\ g_entity g' = g_entity g /\
             g_sent g' = g_sent g ++ [Clear; PlanPoints goal [] modify; Enable; Engage].
Proof.
  intros g modify goal. eexists. split; [reflexivity|]. split; [reflexivity|]. cbn. rewrite <- !app_assoc.
  reflexivity.
Qed.
(** Any route can be given to a driving ego: it is not so, two places already write outside a vector. *)
Definition C188_claim : Prop := forall g modify route through goal, split_route route through goal ->
  exists g', replan g modify route = Ok g' /\
             g_sent g' = g_sent g ++ [Clear; PlanPoints goal through modify; Enable; Engage].

(** ** C187: respawning. *)

Local Open Scope R_scope.

Section Respawn.
  Variable canonicalize : lane_pose -> option lane_pose.
  Variable on_map : lane_pose -> pose.
  Variable match_among : pose -> list Z -> R -> option lane_pose.
  Variable match_any : pose -> Z -> bool -> R -> option lane_pose.
  Variable reach : entity -> R.
  Let respawn' := respawn canonicalize on_map match_among match_any reach.
  Let frame' := frame canonicalize on_map match_among match_any reach.

  Lemma set_map_pose_total : forall e p a, consistent on_map e ->
    exists n, set_map_pose canonicalize on_map match_among match_any reach e p a = Done n /\ at_point p n /\
              s_action (e_status n) = a /\ same_entity n e /\ s_time (e_status n) = s_time (e_status e) /\
              consistent on_map n.
  Proof.
    intros e p a K. unfold set_map_pose, set_status, set_among.
    match goal with |- context [make _ ?s ?c] => generalize c; intros lane end.
    rewrite replace_same by (destruct lane; repeat split).
    eexists. split; [reflexivity|]. split; [destruct lane; split; reflexivity|].
    split; [destruct lane; reflexivity|]. split; [destruct lane; repeat split|].
    split; [destruct lane; reflexivity|apply make_consistent].
  Qed.
  Lemma report_total : forall e p ids, s_kind (e_status e) = Ego ->
    exists n, report_map_pose canonicalize on_map match_among match_any reach e p ids = Done n /\ at_point p n /\
              s_action (e_status n) = s_action (e_status e) /\ same_entity n e /\
              s_time (e_status n) = s_time (e_status e) /\ consistent on_map n.
  Proof.
    intros e p ids K. unfold report_map_pose. rewrite K. unfold set_among.
    match goal with |- context [make _ ?s ?c] => generalize c; intros lane end.
    rewrite replace_same by (destruct lane; repeat split).
    eexists. split; [reflexivity|]. split; [destruct lane; split; reflexivity|].
    split; [destruct lane; reflexivity|]. split; [destruct lane; repeat split|].
    split; [destruct lane; reflexivity|apply make_consistent].
  Qed.

  (** A pose that is not given on the map is refused, and nothing happens. *)
  Theorem C187_frame : forall g frame_id p goal ids simulator, frame_id <> "map"%string ->
    respawn' g frame_id p goal ids simulator = (Error g, None).
  Proof.
    intros g frame_id p goal ids simulator N. unfold respawn', respawn.
    destruct (string_dec frame_id "map") as [E|E]; [contradiction|reflexivity].
  Qed.
  (** Otherwise the simulator is asked to put the ego, standing, at the point given. *)
  Lemma respawn_asks : forall g p goal ids simulator, consistent on_map (g_entity g) ->
    exists e, at_point p e /\ standing e /\ same_entity e (g_entity g) /\ consistent on_map e /\
      s_time (e_status e) = s_time (e_status (g_entity g)) /\
      ego_set_map_pose canonicalize on_map match_among match_any reach (g_entity g) true p idle = Done e /\
      snd (respawn' g "map" p goal ids simulator) =
        Some {| u_status := e_status e; u_overwrite := true |} /\
      s_action (e_status e) = idle.
  Proof.
    intros g p goal ids simulator K. destruct (set_map_pose_total (g_entity g) p idle K) as (e & D & P & A & S & T & C).
    exists e. split; [exact P|]. split; [unfold standing; rewrite A; repeat split|]. split; [exact S|].
    split; [exact C|]. split; [exact T|].
    assert (X : ego_set_map_pose canonicalize on_map match_among match_any reach (g_entity g) true p idle = Done e).
    { unfold ego_set_map_pose. destruct Rlt_dec; exact D. }
    split; [exact X|]. split; [|exact A].
    unfold respawn', respawn. destruct (string_dec "map" "map") as [_|N]; [|contradiction].
    rewrite X. reflexivity.
  Qed.
  Theorem C187_asks : forall g p goal ids simulator, consistent on_map (g_entity g) ->
    exists e, at_point p e /\ standing e /\ same_entity e (g_entity g) /\
      snd (respawn' g "map" p goal ids simulator) = Some {| u_status := e_status e; u_overwrite := true |}.
  Proof.
    intros g p goal ids simulator K.
    destruct (respawn_asks g p goal ids simulator K) as (e & P & S & M & _ & _ & _ & U & _). exists e.
    split; [exact P|]. split; [exact S|]. split; [exact M|exact U].
  Qed.
  (** If it answers with the ego's new status, the ego is there, with the speed and acceleration answered,
      under Autoware's control, and Autoware is asked to forget its route, plan to the goal and drive. *)
  Theorem C187_done : forall g p goal ids simulator q a, consistent on_map (g_entity g) ->
    s_kind (e_status (g_entity g)) = Ego ->
    (forall u, u_overwrite u = true -> s_name (u_status u) = s_name (e_status (g_entity g)) ->
       simulator u = {| w_success := true; w_statuses := [(s_name (e_status (g_entity g)), q, a)] |}) ->
    exists g', fst (respawn' g "map" p goal ids simulator) = Ok g' /\
      at_point q (g_entity g') /\ a_speed (s_action (e_status (g_entity g'))) = a_speed a /\
      a_acceleration (s_action (e_status (g_entity g'))) = a_acceleration a /\
      a_name (s_action (e_status (g_entity g'))) = ""%string /\ a_jerk (s_action (e_status (g_entity g'))) = 0 /\
      same_entity (g_entity g') (g_entity g) /\ consistent on_map (g_entity g') /\
      s_time (e_status (g_entity g')) = s_time (e_status (g_entity g)) /\
      g_controlled g' = false /\
      g_sent g' = g_sent g ++ [Clear; PlanPoints goal [] false; Enable; Engage].
  Proof.
    intros g p goal ids simulator q a K E W.
    destruct (respawn_asks g p goal ids simulator K) as (e & P & S & (M1 & M2 & M3 & M4) & C & T & X & _ & I).
    unfold respawn', respawn. destruct (string_dec "map" "map") as [_|N]; [|contradiction]. rewrite X.
    cbn [fst]. rewrite (W {| u_status := e_status e; u_overwrite := true |} eq_refl M1). cbn [w_success w_statuses].
    rewrite <- M1. destruct (string_dec (s_name (e_status e)) (s_name (e_status e))) as [_|N]; [|contradiction].
    destruct (report_total e q ids) as (n & D & P' & A & (M1' & M2' & M3' & M4') & T' & C'); [rewrite M2; exact E|].
    rewrite D. destruct (C188_replan (with_entity (taken n a) (with_control false (with_entity e g))) false goal)
      as (g' & G & GE & GS).
    exists g'. split; [exact G|]. rewrite GE, GS. cbn [with_entity g_entity].
    split; [exact P'|]. split; [reflexivity|]. split; [reflexivity|].
    assert (Z : s_action (e_status n) = idle) by (rewrite A; exact I).
    split; [cbn; rewrite Z; reflexivity|]. split; [cbn; rewrite Z; reflexivity|].
    split; [repeat split; cbn; congruence|]. split; [exact C'|].
    split; [cbn; congruence|]. injection G as <-. split; reflexivity.
  Qed.
  (** If it answers anything else, the request throws, and Autoware is asked nothing. *)
  Theorem C187_failed : forall g p goal ids simulator, consistent on_map (g_entity g) ->
    (forall u, w_success (simulator u) = false \/
               forall q a, w_statuses (simulator u) <> [(s_name (e_status (g_entity g)), q, a)]) ->
    exists g', fst (respawn' g "map" p goal ids simulator) = Error g' /\ g_sent g' = g_sent g /\
               g_controlled g' = false /\ at_point p (g_entity g') /\ standing (g_entity g').
  Proof.
    intros g p goal ids simulator K W.
    destruct (respawn_asks g p goal ids simulator K) as (e & P & S & (M1 & _) & C & T & X & _).
    exists (with_control false (with_entity e g)).
    split; [|repeat split; apply P || apply S].
    unfold respawn', respawn. destruct (string_dec "map" "map") as [_|N]; [|contradiction]. rewrite X. cbn [fst].
    destruct (W {| u_status := e_status e; u_overwrite := true |}) as [F|F].
    - rewrite F. reflexivity.
    - destruct (w_success _); [|reflexivity].
      destruct (w_statuses _) as [|[[n q] a] [|? ?]] eqn:Q; try reflexivity.
      destruct (string_dec n (s_name (e_status e))) as [->|N]; [|reflexivity].
      exfalso. apply (F q a). rewrite M1. reflexivity.
  Qed.

  (** ** C190: the ego. *)

  (** Frames of an ego that follows a trajectory: nothing is asked of Autoware until the trajectory ends;
      then it is asked, once, to take control, and nothing more. *)
  Fixpoint frames (g : ego) (l : list ((entity -> option status) * R)) : result ego :=
    match l with
    | [] => Ok g
    | (step, t) :: l' => match frame' g step t with Ok g' => frames g' l' | r => r end
    end.
  Lemma frames_free : forall l g g', frames g l = Ok g' -> g_controlled g = false ->
    g_sent g' = g_sent g /\ g_controlled g' = false /\
    s_pose (e_status (g_entity g')) = s_pose (e_status (g_entity g)) /\
    s_action (e_status (g_entity g')) = s_action (e_status (g_entity g)) /\
    e_lane (g_entity g') = e_lane (g_entity g).
  Proof.
    induction l as [|[step t] l IH]; intros g g' H F; cbn [frames] in H.
    - injection H as <-. repeat split; assumption.
    - unfold frame', frame in H. rewrite F in H.
      destruct (IH _ _ H F) as (A & B & C & D & E). repeat split; assumption.
  Qed.
  Theorem C190_follow : forall l g g', frames g l = Ok g' -> g_controlled g = true ->
    (g_controlled g' = true /\ g_sent g' = g_sent g) \/
    (g_controlled g' = false /\ g_sent g' = g_sent g ++ [Enable]).
  Proof.
    induction l as [|[step t] l IH]; intros g g' H F; cbn [frames] in H.
    - injection H as <-. left. split; [exact F|reflexivity].
    - unfold frame', frame in H. rewrite F in H. destruct (step (g_entity g)) as [s|].
      + destruct (set_status_among _ _ _ _ _ _ _ _) as [e| |]; try discriminate.
        destruct (IH _ _ H F) as [[A B]|[A B]]; [left|right]; split; assumption.
      + destruct (frames_free _ _ _ H eq_refl) as (A & B & _). right. split; [exact B|exact A].
  Qed.
  (** The ending frame: exactly when there is no next status. *)
  Theorem C190_ends : forall g step t g', frame' g step t = Ok g' -> g_controlled g = true ->
    (step (g_entity g) = None <-> g_controlled g' = false).
  Proof.
    intros g step t g' H F. unfold frame', frame in H. rewrite F in H. destruct (step (g_entity g)) as [s|].
    - destruct (set_status_among _ _ _ _ _ _ _ _) as [e| |]; try discriminate. injection H as <-.
      cbn. rewrite F. split; discriminate.
    - injection H as <-. split; reflexivity.
  Qed.
  (** Under Autoware's control, frames leave the ego's pose and speed alone. *)
  Theorem C190_free : forall l g g', frames g l = Ok g' -> g_controlled g = false ->
    g_sent g' = g_sent g /\ g_controlled g' = false /\
    s_pose (e_status (g_entity g')) = s_pose (e_status (g_entity g)) /\
    s_action (e_status (g_entity g')) = s_action (e_status (g_entity g)) /\
    e_lane (g_entity g') = e_lane (g_entity g).
  Proof. exact frames_free. Qed.
  (** The time of its status is that after the frame. *)
  Theorem C190_time : forall g step t, g_controlled g = false ->
    exists g', frame' g step t = Ok g' /\ s_time (e_status (g_entity g')) = t.
  Proof.
    intros g step t F. unfold frame', frame. rewrite F. eexists. split; [reflexivity|]. reflexivity.
  Qed.
End Respawn.

(** A change of lanes, and a speed relative to another entity, cannot be asked of the ego; an absolute speed
    only before the scenario runs. Nothing changes then. *)
Theorem C190_refused : forall g,
  ask g LaneChange = Error g /\ ask g RelativeSpeedChange = Error g /\
  (forall v, 0 < s_time (e_status (g_entity g)) -> ask g (SpeedChange v) = Error g) /\
  (forall v, s_time (e_status (g_entity g)) <= 0 -> exists g', ask g (SpeedChange v) = Ok g' /\
     g_target g' = Some v /\ g_sent g' = g_sent g /\ g_entity g' = g_entity g).
Proof.
  intros g. split; [reflexivity|]. split; [reflexivity|]. split; intros v T; cbn; destruct Rlt_dec; try lra.
  - reflexivity.
  - eexists. repeat split.
Qed.
(** A limit of the speed is told to Autoware, and holds for trajectories the simulator makes the ego
    follow. *)
Theorem C190_limit : forall g v, exists g', ask g (VelocityLimit v) = Ok g' /\ g_max g' = v /\
  g_sent g' = g_sent g ++ [Limit v] /\ g_entity g' = g_entity g /\ g_controlled g' = g_controlled g.
Proof. intros g v. eexists. repeat split. Qed.

(** A trajectory puts the simulator in control, and there has to be one; to clear the route is told to Autoware. *)
Theorem C190_taken : forall g,
  (exists g', ask g (FollowTrajectory true) = Ok g' /\ g_controlled g' = true /\ g_entity g' = g_entity g /\
     g_sent g' = g_sent g /\ g_max g' = g_max g /\ g_target g' = g_target g) /\
  ask g (FollowTrajectory false) = Error g /\
  (exists g', ask g ClearRoute = Ok g' /\ g_sent g' = g_sent g ++ [Clear] /\ g_entity g' = g_entity g /\
     g_controlled g' = g_controlled g).
Proof. intros g. split; [eexists; repeat split|]. split; [reflexivity|]. eexists. repeat split. Qed.

(** ** What does not hold *)

Definition somewhere : pose := {| p_x := 5; p_y := 0; p_z := 0; p_turn := straight |}.
Definition elsewhere : pose := {| p_x := 9; p_y := 9; p_z := 0; p_turn := straight |}.
Definition an_ego (b : bool) : ego :=
  {| g_entity := car 0 Ego; g_initialized := true; g_controlled := b; g_target := None; g_max := 50;
     g_sent := [] |}.

Theorem C188_refuted : ~ C188_claim.
Proof.
  intros C. destruct (C (an_ego false) false [somewhere; elsewhere] [somewhere] elsewhere eq_refl)
    as (g' & E & _). discriminate.
Qed.

Local Open Scope Z_scope.
(** Two lanelets 1 and 2, with a way from 1 to 2 only. *)
Definition two (a b : Z) : list Z :=
  if a =? b then [a] else if (a =? 1) && (b =? 2) then [1; 2] else [].
Definition two_enter (a b : Z) : Prop := a = 1 /\ b = 2.
Lemma two_ways : ways two_enter two.
Proof.
  intros a b. unfold two. destruct (Z.eqb_spec a b) as [->|N].
  - intros _. repeat split.
  - destruct (Z.eqb_spec a 1) as [->|]; [|intros H; exfalso; apply H; reflexivity].
    destruct (Z.eqb_spec b 2) as [->|]; [|intros H; exfalso; apply H; reflexivity].
    intros _. cbn. repeat split.
Qed.
Definition by_lanes : options := {| o_modify := false; o_lanes := true |}.
Definition on_lanelet (i : Z) : lane_pose := {| l_id := i; l_s := 0; l_offset := 0; l_yaw := 0 |}.

(** The hypotheses of [C185_lanes] hold of a route from lanelet 1 over lanelet 1 to lanelet 2. *)
Example C185_lanes_example :
  ways two_enter two /\ e_lane (g_entity (an_ego false)) = Some lane10 /\
  connected two (l_id lane10) (map l_id [on_lanelet 1; on_lanelet 2]) /\
  ego_assign two road_pose (an_ego false) by_lanes [on_lanelet 1; on_lanelet 2] =
  Ok (begin_route (PlanLanes (road_pose (on_lanelet 2)) [1; 2] false) (send Clear (an_ego false))).
Proof.
  split; [exact two_ways|]. split; [reflexivity|]. split; [cbn; repeat split; discriminate|reflexivity].
Qed.

(** A goal that cannot be reached is refused, or at least the lanelets end at the goal's: it is not so. *)
Definition C185_unreachable_claim : Prop :=
  forall enter graph on_map g o route through goal l g' lanes modify,
  ways enter graph -> o_lanes o = true -> split_route route through goal -> e_lane (g_entity g) = Some l ->
  ego_assign graph on_map g o route = Ok g' ->
  In (PlanLanes (on_map goal) lanes modify) (g_sent g') -> ~ In (PlanLanes (on_map goal) lanes modify) (g_sent g) ->
  last lanes (l_id l) = l_id goal.
Theorem C185_unreachable_refuted : ~ C185_unreachable_claim.
Proof.
  intros C.
  specialize (C two_enter two road_pose (an_ego false) by_lanes [on_lanelet 3] [] (on_lanelet 3) lane10
                (begin_route (PlanLanes (road_pose (on_lanelet 3)) [1] false) (send Clear (an_ego false)))
                [1] false two_ways eq_refl eq_refl eq_refl eq_refl).
  assert (X : 1 = 3) by (apply C; [right; left; reflexivity|intros []]). discriminate.
Qed.
(** Autoware is asked for the goal that was requested, or the request is refused: not with poses and routing
    by lanelets. A pose on no lanelet is left out, and the place before it becomes the goal. *)
Definition C185_dropped_claim : Prop :=
  forall graph on_map found g o route through goal g' place lanes modify,
  o_lanes o = true -> split_route route through goal ->
  (forall p l, found p = Some l -> on_map l = p) ->
  ego_assign_poses graph on_map found g o route = Ok g' ->
  In (PlanLanes place lanes modify) (g_sent g') -> ~ In (PlanLanes place lanes modify) (g_sent g) -> place = goal.
Definition only_straight (p : pose) : option lane_pose :=
  if Req_EM_T (p_x p) 5 then if Req_EM_T (p_y p) 0 then
    if Req_EM_T (p_z p) 0 then if Req_EM_T (t_cos (p_turn p)) 1 then if Req_EM_T (t_sin (p_turn p)) 0
    then Some (on_lanelet 2) else None else None else None else None else None.
Definition there (l : lane_pose) : pose := somewhere.
Lemma only_straight_there : only_straight somewhere = Some (on_lanelet 2).
Proof.
  unfold only_straight, somewhere, straight; cbn [p_x p_y p_z p_turn t_cos t_sin].
  repeat (match goal with |- context [Req_EM_T ?a ?b] => destruct (Req_EM_T a b); [|contradiction] end).
  reflexivity.
Qed.
Lemma only_straight_elsewhere : only_straight elsewhere = None.
Proof.
  unfold only_straight, elsewhere; cbn [p_x p_y p_z p_turn t_cos t_sin].
  destruct (Req_EM_T 9 5); [lra|reflexivity].
Qed.
Theorem C185_dropped_refuted : ~ C185_dropped_claim.
Proof.
  intros C.
  specialize (C two there only_straight (an_ego false) by_lanes [somewhere; elsewhere] [somewhere] elsewhere
                (begin_route (PlanLanes somewhere [1; 2] false) (send Clear (an_ego false)))
                somewhere [1; 2] false eq_refl eq_refl).
  assert (X : somewhere = elsewhere).
  { apply C.
    - intros p l H. unfold only_straight in H.
      repeat (match type of H with context [Req_EM_T ?a ?b] => destruct (Req_EM_T a b); [|discriminate] end).
      destruct p as [x y z [c s]]; cbn in *. subst. reflexivity.
    - unfold ego_assign_poses. cbn [o_lanes by_lanes matched]. rewrite only_straight_there, only_straight_elsewhere.
      reflexivity.
    - right; left; reflexivity.
    - intros []. }
  injection X as X _. lra.
Qed.
(** A goal on no lanelet is refused: it is not so, with routing by lanelets it is undefined what happens. *)
Definition C185_goal_claim : Prop := forall graph on_map found g o p, found p = None ->
  exists g', ego_acquire_pose graph on_map found g o p = Ok g' \/
             ego_acquire_pose graph on_map found g o p = Error g'.
Theorem C185_goal_refuted : ~ C185_goal_claim.
Proof.
  intros C. destruct (C two there only_straight (an_ego false) by_lanes elsewhere only_straight_elsewhere)
    as (g' & H). unfold ego_acquire_pose, ego_assign_poses in H. cbn [o_lanes by_lanes matched] in H.
  rewrite only_straight_elsewhere in H. cbn in H. destruct H; discriminate.
Qed.

Definition lost : entity := make road_pose (e_status (car 0 Vehicle)) None.
Definition a_walker : npc :=
  {| n_entity := lost; n_wish := NoRequest; n_waypoints := [on_lanelet 1]; n_goals := [] |}.
(** A route that is not refused is taken: not by an entity that is on no lane, which ignores it. *)
Definition C186_taken_claim : Prop := forall on_map n route n', npc_assign on_map n route = Ok n' ->
  n_waypoints n' = route.
Theorem C186_taken_refuted : ~ C186_taken_claim.
Proof.
  intros C. specialize (C road_pose a_walker [on_lanelet 2] a_walker eq_refl). discriminate.
Qed.
(** Waypoints and goals agree after a position was requested: not for an entity that is on no lane, which
    keeps the waypoints of the route before. *)
Definition C186_agree_claim : Prop := forall on_map n l n', npc_acquire on_map n l = Ok n' ->
  n_goals n' = map on_map (n_waypoints n').
Definition spaced (l : lane_pose) : pose :=
  {| p_x := IZR (l_id l); p_y := 0; p_z := 0; p_turn := straight |}.
Theorem C186_agree_refuted : ~ C186_agree_claim.
Proof.
  intros C. specialize (C spaced a_walker (on_lanelet 2) _ eq_refl). cbn in C. injection C as C. lra.
Qed.

(** The ego is respawned in the direction given: it is not so, if it was on a lane. The simulator is told the
    direction of the place where it was. *)
Definition C187_direction_claim : Prop :=
  forall canonicalize on_map match_among match_any reach g p goal ids simulator u,
  consistent on_map (g_entity g) ->
  snd (respawn canonicalize on_map match_among match_any reach g "map" p goal ids simulator) = Some u ->
  match_any p (s_box (e_status (g_entity g))) false (reach (g_entity g)) = None ->
  (forall i, match_among p i (reach (g_entity g)) = None) ->
  p_turn (s_pose (u_status u)) = p_turn p.
Definition sideways : pose := {| p_x := 500; p_y := 100; p_z := 7; p_turn := {| t_cos := 0; t_sin := 1 |} |}.
Theorem C187_direction_refuted : ~ C187_direction_claim.
Proof.
  intros C.
  assert (K : consistent road_pose (car 0 Ego)) by (repeat split).
  set (fail := fun _ : update => {| w_success := false; w_statuses := [] |}).
  set (nowhere := fun (_ : pose) (_ : list Z) (_ : R) => @None lane_pose).
  set (nothing := fun (_ : pose) (_ : Z) (_ : bool) (_ : R) => @None lane_pose).
  destruct (C176_on_lane road_canonical road_pose nowhere nothing one_metre (car 0 Ego) sideways lane10 eq_refl K
              road_canonical_form) as (n & D & _ & _ & _ & _ & T & _).
  specialize (C road_canonical road_pose nowhere nothing one_metre (an_ego false) sideways somewhere [] fail
                {| u_status := e_status n; u_overwrite := true |} K).
  assert (X : p_turn (s_pose (e_status n)) = p_turn sideways).
  { apply C; [|reflexivity|reflexivity]. unfold respawn. destruct (string_dec "map" "map") as [_|N]; [|contradiction].
    unfold ego_set_map_pose. cbn [g_entity an_ego]. unfold teleport in D. destruct Rlt_dec; rewrite D; reflexivity. }
  rewrite T in X. cbn in X. injection X as X _. lra.
Qed.
(** A respawn that fails leaves the control of the ego as it was: it is not so. An ego that follows a
    trajectory is then controlled neither by the simulator nor, for it was not asked, by Autoware. *)
Definition C187_control_claim : Prop :=
  forall canonicalize on_map match_among match_any reach g p goal ids simulator g',
  consistent on_map (g_entity g) ->
  fst (respawn canonicalize on_map match_among match_any reach g "map" p goal ids simulator) = Error g' ->
  g_controlled g = true -> g_controlled g' = true \/ In Enable (g_sent g').
Theorem C187_control_refuted : ~ C187_control_claim.
Proof.
  intros C.
  assert (K : consistent road_pose (g_entity (an_ego true))) by (repeat split).
  set (fail := fun _ : update => {| w_success := false; w_statuses := [] |}).
  destruct (C187_failed road_canonical road_pose road_among road_any one_metre (an_ego true) somewhere elsewhere []
              fail K) as (g' & E & S & F & _); [intros u; left; reflexivity|].
  destruct (C _ _ _ _ _ _ _ _ _ _ _ K E eq_refl) as [X|X]; [congruence|]. rewrite S in X. destruct X.
Qed.

(** ** Examples: the hypotheses can be met. *)
Example C184_points_example :
  ego_assign_poses two road_pose only_straight (an_ego false) {| o_modify := true; o_lanes := false |}
    [somewhere; elsewhere] =
  Ok (begin_route (PlanPoints elsewhere [somewhere] true) (send Clear (an_ego false))).
Proof. reflexivity. Qed.
Example C187_done_example : consistent road_pose (g_entity (an_ego true)) /\
  s_kind (e_status (g_entity (an_ego true))) = Ego /\
  (let simulator := fun u => {| w_success := true;
      w_statuses := [(s_name (u_status u), s_pose (u_status u), s_action (u_status u))] |} in
   forall u, s_name (u_status u) = s_name (e_status (g_entity (an_ego true))) -> w_success (simulator u) = true).
Proof. repeat split. Qed.
Example C190_follow_example : exists g',
  frames road_canonical road_pose road_among road_any one_metre (an_ego true)
    [(fun e => None, 1%R); (fun e => None, 2%R)] = Ok g' /\ g_sent g' = [Enable] /\ g_controlled g' = false.
Proof. eexists. split; [reflexivity|]. split; reflexivity. Qed.
Example C189_each_example :
  act two road_pose only_straight (fun _ _ => None) None (Some true) (ToPose somewhere)
    [(AEgo (an_ego false), Some false); (AEgo (an_ego false), None)] =
  Ok [AEgo (begin_route (PlanPoints somewhere [] false) (send Clear (an_ego false)));
      AEgo (begin_route (PlanPoints somewhere [] true) (send Clear (an_ego false)))].
Proof. reflexivity. Qed.

Print Assumptions C184_once.
Print Assumptions C185_lanes.
Print Assumptions C187_done.
