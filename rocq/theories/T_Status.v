(** * Theorems about the status of entities, teleporting and adding (C175-C178). *)
From Coq Require Import String List Bool ZArith Reals Lra.
From Verif Require Import M_Status S_Status.
Import ListNotations.
Local Open Scope R_scope.

Section Map.
  Variable canonicalize : lane_pose -> option lane_pose.
  Variable on_map : lane_pose -> pose.
  Variable match_among : pose -> list Z -> R -> option lane_pose.
  Variable match_any : pose -> Z -> bool -> R -> option lane_pose.
  Variable reach : entity -> R.
  Let set_among' := set_among canonicalize on_map match_among match_any.
  Let set_status' := set_status canonicalize on_map match_among match_any reach.
  Let set_map_pose' := set_map_pose canonicalize on_map match_among match_any reach.
  Let perform' := perform canonicalize on_map match_among match_any reach.
  Let history' := history canonicalize on_map match_among match_any reach.
  Let teleport' := teleport canonicalize on_map match_among match_any reach.
  Let add' := add canonicalize on_map match_among match_any reach.

  Lemma make_consistent : forall s c, consistent on_map (make on_map s c).
  Proof. intros s [l|]; repeat split. Qed.
  Lemma replace_done : forall e n m, replace e n = Done m -> m = n /\ same_entity n e.
  Proof.
    intros e n m E. unfold replace in E.
    destruct kind_dec; [|discriminate]. destruct Z.eq_dec; [|discriminate].
    destruct string_dec; [|discriminate]. destruct Z.eq_dec; [|discriminate].
    injection E as <-. split; [reflexivity|]. unfold same_entity. auto.
  Qed.
  Lemma replace_same : forall e n, same_entity n e -> replace e n = Done n.
  Proof.
    intros e n (E1 & E2 & E3 & E4). unfold replace. rewrite <- E1, <- E2, <- E3, <- E4.
    destruct kind_dec; [|contradiction]. destruct Z.eq_dec; [|contradiction].
    destruct string_dec; [|contradiction]. destruct Z.eq_dec; [|contradiction]. reflexivity.
  Qed.
  Lemma same_refl : forall e, same_entity e e.
  Proof. intros. repeat split. Qed.
  Lemma same_trans : forall a b c, same_entity a b -> same_entity b c -> same_entity a c.
  Proof. intros a b c (A & B & C & D) (E & F & G & H). repeat split; congruence. Qed.

  Lemma perform_done : forall e c n, consistent on_map e -> perform' e c = Done n ->
    consistent on_map n /\ same_entity n e.
  Proof.
    intros e c n K E. unfold perform', perform in E.
    assert (M : forall s d m, replace e (make on_map s d) = Done m ->
                consistent on_map m /\ same_entity m e).
    { intros s d m H. destruct (replace_done _ _ _ H) as [-> S]. split; [apply make_consistent|exact S]. }
    assert (L : forall l a m, set_lane on_map e l a = Done m -> consistent on_map m /\ same_entity m e).
    { intros l a m H. exact (M _ (Some l) _ H). }
    destruct c; try (exact (M _ _ _ E)); try (exact (L _ _ _ E)).
    - unfold set_lanelet_pose in E. destruct of_lane; [|discriminate]. exact (L _ _ _ E).
    - unfold report_map_pose in E. destruct (s_kind (e_status e)); try discriminate. exact (M _ _ _ E).
    - injection E as <-. split; [exact K|repeat split].
    - injection E as <-. split; [exact K|repeat split].
    - unfold teleport in E. destruct q; try (exact (M _ _ _ E)).
      destruct canonicalize; [|discriminate]. exact (L _ _ _ E).
  Qed.

  (** ** C175: the parts of a status agree, whatever happens to the entity. *)
  Theorem C175_consistent : forall cs e n, consistent on_map e -> history' e cs = Done n ->
    consistent on_map n /\ same_entity n e.
  Proof.
    unfold history'. induction cs as [|c cs IH]; intros e n K H; cbn in H.
    - injection H as <-. split; [exact K|apply same_refl].
    - destruct (perform _ _ _ _ _ e c) as [m| |] eqn:E; [|exact (IH _ _ K H)|discriminate].
      destruct (perform_done e c m K E) as [K' S]. destruct (IH _ _ K' H) as [A B].
      split; [exact A|]. eapply same_trans; eassumption.
  Qed.
  (** What is spawned or added is consistent and is what was asked for. *)
  Theorem C175_spawned : forall s d, consistent on_map (spawned canonicalize on_map match_any s d) /\
    same_entity (spawned canonicalize on_map match_any s d) {| e_status := s; e_lane := None |} /\
    at_point (s_pose s) (spawned canonicalize on_map match_any s d).
  Proof.
    intros. split; [apply make_consistent|]. unfold spawned, make. destruct of_map; repeat split.
  Qed.

  (** ** C176: teleporting. *)

  (** To a lane position: the entity is on that lane, at its place, and stands; it is refused exactly
      if there is no such place. *)
  Theorem C176_lane : forall e l,
    match canonicalize l with
    | Some c => exists n, teleport' e (Lane l) = Done n /\ e_lane n = Some c /\
                          s_pose (e_status n) = on_map c /\ standing n /\ consistent on_map n /\
                          same_entity n e /\ s_time (e_status n) = s_time (e_status e)
    | None => teleport' e (Lane l) = Threw
    end.
  Proof.
    intros e l. unfold teleport', teleport. destruct (canonicalize l) as [c|]; [|reflexivity].
    unfold set_lane. rewrite replace_same by repeat split.
    eexists. split; [reflexivity|]. split; [reflexivity|].
    split; [cbn; destruct (on_map c); reflexivity|]. repeat split.
  Qed.
  (** To a pose, of an entity that is off the lanes: it is at that point and stands, on the lane that the
      pose matches; if it matches none, its pose is exactly the one asked for. *)
  Lemma set_map_pose_off : forall e p a, e_lane e = None -> consistent on_map e ->
    exists n, set_map_pose' e p a = Done n /\ at_point p n /\ s_action (e_status n) = a /\
              e_lane n = of_map canonicalize match_any p (s_box (e_status e))
                           (crosswalks (s_kind (e_status e))) (reach e) /\
              (e_lane n = None -> s_pose (e_status n) = p) /\ same_entity n e /\ consistent on_map n.
  Proof.
    intros e p a N K. unfold set_map_pose', set_map_pose, set_status, set_among.
    unfold consistent in K. rewrite N in K. destruct K as [K1 K2]. cbn [s_on_lane with_action with_pose].
    rewrite K1. unfold lane_ids. rewrite N. cbn [s_pose with_action with_pose].
    change (of_map_among canonicalize match_among match_any p (s_box (e_status e)) []
              (crosswalks (s_kind (e_status e))) (reach e))
      with (of_map canonicalize match_any p (s_box (e_status e)) (crosswalks (s_kind (e_status e)))
              (reach e)).
    rewrite replace_same by (unfold make; destruct of_map; repeat split).
    eexists. split; [reflexivity|]. unfold make. destruct of_map; cbn; repeat split; intros; discriminate.
  Qed.
  Theorem C176_world : forall e p, e_lane e = None -> consistent on_map e ->
    exists n, teleport' e (World p) = Done n /\ at_point p n /\ standing n /\
              lane_matches (fun p => of_map canonicalize match_any p (s_box (e_status e))
                                       (crosswalks (s_kind (e_status e))) (reach e)) p n /\
              (e_lane n = None -> s_pose (e_status n) = p) /\ same_entity n e.
  Proof.
    intros e p N K. destruct (set_map_pose_off e p idle N K) as (n & D & P & A & L & X & S & _).
    exists n. split; [exact D|]. split; [exact P|]. split; [unfold standing; rewrite A; repeat split|].
    split; [exact L|]. split; assumption.
  Qed.
  (** An entity that is on a lane comes to the point, but is still said to be where it was on the lane,
      and has the height and direction of that place. *)
  Theorem C176_on_lane : forall e p l, e_lane e = Some l -> consistent on_map e ->
    canonical_form canonicalize l ->
    exists n, teleport' e (World p) = Done n /\ at_point p n /\ standing n /\ e_lane n = Some l /\
              p_z (s_pose (e_status n)) = p_z (on_map l) /\
              p_turn (s_pose (e_status n)) = p_turn (on_map l) /\ same_entity n e.
  Proof.
    intros e p l N K [C C']. unfold teleport', teleport, set_map_pose, set_status, set_among.
    unfold consistent in K. rewrite N in K. destruct K as (K1 & K2 & _).
    cbn [s_on_lane s_lane with_action with_pose]. rewrite K1, K2. unfold of_lane.
    destruct lane_pose_dec; [contradiction|]. rewrite C. rewrite replace_same by repeat split.
    eexists. split; [reflexivity|]. repeat split.
  Qed.
  (** A position relative to an object: the place is the one named. *)
  Theorem C176_object : forall e r dx dy dz o, e_lane e = None -> consistent on_map e ->
    exists n, teleport' e (RelativeObject r dx dy dz o) = Done n /\ standing n /\ same_entity n e /\
              named_point on_map (RelativeObject r dx dy dz o) (p_x (s_pose (e_status n)))
                (p_y (s_pose (e_status n))) /\
              (e_lane n = None -> turned_by (p_turn r) o (p_turn (s_pose (e_status n))) /\
                                  p_z (s_pose (e_status n)) = p_z r + dz).
  Proof.
    intros e r dx dy dz o N K.
    destruct (set_map_pose_off e (to_global r {| p_x := dx; p_y := dy; p_z := dz; p_turn := o |}) idle N K)
      as (n & D & P & A & L & X & S & _).
    exists n. split; [exact D|]. split; [unfold standing; rewrite A; repeat split|]. split; [exact S|].
    split.
    - destruct P as [-> ->]. cbn. split; ring.
    - intros E. rewrite (X E). split; [|reflexivity]. intros u v A1 A2 A3 A4. cbn.
      rewrite A1, A2, A3, A4, cos_plus, sin_plus. split; ring.
  Qed.
  (** The ego: a teleport is not refused once the scenario runs, although setStatus of the ego is. *)
  Theorem C176_ego_guard : forall e p a, 0 < s_time (e_status e) ->
    ego_set_map_pose canonicalize on_map match_among match_any reach e false p a = Threw.
  Proof. intros e p a T. unfold ego_set_map_pose. destruct Rlt_dec; [reflexivity|contradiction]. Qed.

  (** ** C177: adding an entity. *)

  (** At a lane position: exactly as after a teleport there; refused exactly if there is no such place. *)
  Theorem C177_lane : forall k st t nm box d l,
    match canonicalize l with
    | Some c => exists n, add' k st t nm box d (Lane l) = Done n /\ e_lane n = Some c /\
                          s_pose (e_status n) = on_map c /\ standing n /\ consistent on_map n /\
                          s_name (e_status n) = nm /\ s_kind (e_status n) = k /\
                          s_subtype (e_status n) = st /\ s_box (e_status n) = box /\
                          s_time (e_status n) = t
    | None => add' k st t nm box d (Lane l) = Threw
    end.
  Proof.
    intros k st t nm box d l. unfold add', add. destruct (canonicalize l) as [c|] eqn:E; [|reflexivity].
    pose proof (C176_lane (spawned_on_lane on_map (fresh k st t nm box (on_map c)) c) l) as T.
    rewrite E in T. destruct T as (n & D & L & P & S & K & (S1 & S2 & S3 & S4) & W). exists n.
    split; [exact D|]. split; [exact L|]. split; [exact P|]. split; [exact S|]. split; [exact K|].
    cbn in *. repeat split; assumption.
  Qed.
  (** At a pose: at that point, on the lane it matches, standing; if it matches none when it is added,
      it is asked again with the distance of the entity. *)
  Theorem C177_world : forall k st t nm box d p l,
    of_map canonicalize match_any p box (crosswalks k) d = Some l -> canonical_form canonicalize l ->
    exists n, add' k st t nm box d (World p) = Done n /\ at_point p n /\ standing n /\ e_lane n = Some l /\
              s_name (e_status n) = nm /\ s_kind (e_status n) = k.
  Proof.
    intros k st t nm box d p l F C. unfold add', add.
    destruct (C176_on_lane (spawned canonicalize on_map match_any (fresh k st t nm box p) d) p l)
      as (n & D & P & S & L & _ & _ & (S1 & S2 & _)).
    - unfold spawned. cbn [s_pose s_box s_kind fresh]. rewrite F. reflexivity.
    - apply make_consistent.
    - exact C.
    - exists n. split; [exact D|]. split; [exact P|]. split; [exact S|]. split; [exact L|].
      unfold spawned in S1, S2. cbn [s_pose s_box s_kind fresh] in S1, S2. rewrite F in S1, S2.
      split; assumption.
  Qed.
  Theorem C177_world_off : forall k st t nm box d p,
    of_map canonicalize match_any p box (crosswalks k) d = None ->
    exists n, add' k st t nm box d (World p) = Done n /\ at_point p n /\ standing n /\
              (e_lane n = None -> s_pose (e_status n) = p) /\
              s_name (e_status n) = nm /\ s_kind (e_status n) = k.
  Proof.
    intros k st t nm box d p F. unfold add', add.
    assert (E : spawned canonicalize on_map match_any (fresh k st t nm box p) d =
                {| e_status := fresh k st t nm box p; e_lane := None |}).
    { unfold spawned. cbn [s_pose s_box s_kind fresh]. rewrite F. reflexivity. }
    rewrite E.
    destruct (C176_world {| e_status := fresh k st t nm box p; e_lane := None |} p)
      as (n & D & P & S & _ & X & (S1 & S2 & _)); [reflexivity|split; reflexivity|].
    exists n. repeat split; try assumption; apply P || apply S.
  Qed.
  (** Relative to an object, off the lanes: at the place and with the direction named. *)
  Theorem C177_object : forall k st t nm box d r dx dy dz o,
    of_map canonicalize match_any (object_point r dx dy dz) box (crosswalks k) d = None ->
    exists n, add' k st t nm box d (RelativeObject r dx dy dz o) = Done n /\ standing n /\
              named_point on_map (RelativeObject r dx dy dz o) (p_x (s_pose (e_status n)))
                (p_y (s_pose (e_status n))) /\
              (e_lane n = None -> turned_by (p_turn r) o (p_turn (s_pose (e_status n)))).
  Proof.
    intros k st t nm box d r dx dy dz o F. unfold add', add.
    assert (E : spawned canonicalize on_map match_any (fresh k st t nm box (object_point r dx dy dz)) d =
                {| e_status := fresh k st t nm box (object_point r dx dy dz); e_lane := None |}).
    { unfold spawned. cbn [s_pose s_box s_kind fresh]. rewrite F. reflexivity. }
    rewrite E.
    destruct (C176_object {| e_status := fresh k st t nm box (object_point r dx dy dz); e_lane := None |}
                r dx dy dz o) as (n & D & S & _ & N & X); [reflexivity|split; reflexivity|].
    exists n. split; [exact D|]. split; [exact S|]. split; [exact N|]. intros H. apply (X H).
  Qed.

  (** ** C178: reading a status and setting it again. *)

  (** An entity on a lane is left as it is. *)
  Theorem C178_same : forall e l, e_lane e = Some l -> consistent on_map e ->
    canonical_form canonicalize l -> set_status' e (e_status e) = Done e.
  Proof.
    intros e l N K [C C']. unfold set_status', set_status, set_among. unfold consistent in K.
    rewrite N in K. destruct K as (K1 & K2 & K3 & K4). rewrite K1, K2. unfold of_lane.
    destruct lane_pose_dec; [contradiction|]. rewrite C. rewrite replace_same by repeat split.
    f_equal. destruct e as [s o]. cbn in N. subst o. unfold make, with_pose, with_lane. cbn in *.
    f_equal. destruct s as [k st t nm b a p ln v]. cbn in *. destruct p as [x y z w]. cbn in *. subst.
    reflexivity.
  Qed.
  (** An entity off the lanes stays at its point, and is on the lane that its pose matches, if any. *)
  Theorem C178_off : forall e, e_lane e = None -> consistent on_map e ->
    exists n, set_status' e (e_status e) = Done n /\ at_point (s_pose (e_status e)) n /\
              s_action (e_status n) = s_action (e_status e) /\
              e_lane n = of_map canonicalize match_any (s_pose (e_status e)) (s_box (e_status e))
                           (crosswalks (s_kind (e_status e))) (reach e) /\
              (e_lane n = None -> n = e) /\ same_entity n e.
  Proof.
    intros e N K.
    destruct (set_map_pose_off e (s_pose (e_status e)) (s_action (e_status e)) N K)
      as (n & D & P & A & L & X & S & K').
    assert (E : with_action (s_action (e_status e)) (with_pose (s_pose (e_status e)) (e_status e)) =
                e_status e) by (destruct e as [[] ?]; reflexivity).
    unfold set_map_pose', set_map_pose in D. rewrite E in D. exists n. split; [exact D|].
    split; [exact P|]. split; [exact A|]. split; [exact L|]. split; [|exact S]. intros H.
    unfold set_status, set_among in D. destruct (replace_done _ _ _ D) as [F _].
    unfold consistent in K. rewrite N in K. destruct K as [K1 K2].
    destruct e as [s o]. cbn in N. subst o. rewrite F in H |- *. rewrite K1 in *. unfold make in *.
    destruct of_map_among; [discriminate|]. unfold with_lane. destruct s; cbn in *. subst. reflexivity.
  Qed.
  (** The pose reported for the ego: at that point, on a lane of its route that matches, else on one that
      matches; other entities are refused. *)
  Theorem C178_ego : forall e p ids, s_kind (e_status e) = Ego ->
    exists n, report_map_pose canonicalize on_map match_among match_any reach e p ids = Done n /\
              at_point p n /\ consistent on_map n /\ same_entity n e /\
              s_action (e_status n) = s_action (e_status e) /\
              e_lane n = of_map_among canonicalize match_among match_any p (s_box (e_status e)) ids
                           false (reach e).
  Proof.
    intros e p ids K. unfold report_map_pose. rewrite K. unfold set_among.
    cbn [s_on_lane s_pose with_lane with_pose]. rewrite K. cbn [crosswalks].
    rewrite replace_same by (unfold make; destruct of_map_among; repeat split).
    eexists. split; [reflexivity|]. split; [unfold make; destruct of_map_among; repeat split|].
    split; [apply make_consistent|]. unfold make. destruct of_map_among; repeat split.
  Qed.
  Theorem C178_not_ego : forall e p ids, s_kind (e_status e) <> Ego ->
    report_map_pose canonicalize on_map match_among match_any reach e p ids = Threw.
  Proof. intros e p ids K. unfold report_map_pose. destruct (s_kind (e_status e)); congruence. Qed.
End Map.

(** ** What fails. *)
(** A straight road along the x-axis, three metres wide, at height 0: lanelet 1. *)
Definition road_pose (l : lane_pose) : pose :=
  {| p_x := l_s l; p_y := l_offset l; p_z := 0; p_turn := straight |}.
Definition road_canonical (l : lane_pose) : option lane_pose :=
  if Z.eq_dec (l_id l) 1 then Some l else None.
Definition road_match (p : pose) : option lane_pose :=
  if Rle_dec (p_y p) 3 then Some {| l_id := 1; l_s := p_x p; l_offset := p_y p; l_yaw := 0 |} else None.
Definition road_among (p : pose) (ids : list Z) (d : R) := road_match p.
Definition road_any (p : pose) (box : Z) (crosswalk : bool) (d : R) := road_match p.
Definition one_metre (e : entity) : R := 1.
Definition lane10 : lane_pose := {| l_id := 1; l_s := 10; l_offset := 0; l_yaw := 0 |}.
Definition car (t : R) (k : kind) : entity := spawned_on_lane road_pose (fresh k 1 t "car" 5 (road_pose lane10)) lane10.

Lemma road_canonical_form : canonical_form road_canonical lane10.
Proof. split; [reflexivity|]. unfold lane10, no_lane. intros E. injection E. lra. Qed.

(** A teleport to a pose leaves the entity on a lane that the pose matches. *)
Definition C176_match_claim : Prop :=
  forall canonicalize on_map match_among match_any reach e p n, consistent on_map e ->
  (forall l c, canonicalize l = Some c -> canonicalize c = Some c) ->
  teleport canonicalize on_map match_among match_any reach e (World p) = Done n ->
  e_lane n = of_map_among canonicalize match_among match_any p (s_box (e_status e)) (lane_ids e)
               (crosswalks (s_kind (e_status e))) (reach e).
Theorem C176_match_refuted : ~ C176_match_claim.
Proof.
  intros C. set (far := {| p_x := 500; p_y := 100; p_z := 7; p_turn := {| t_cos := 0; t_sin := 1 |} |}).
  assert (K : consistent road_pose (car 0 Vehicle)) by (repeat split).
  destruct (C176_on_lane road_canonical road_pose road_among road_any one_metre (car 0 Vehicle) far lane10
              eq_refl K road_canonical_form) as (n & D & _ & _ & L & _).
  specialize (C road_canonical road_pose road_among road_any one_metre (car 0 Vehicle) far n K).
  rewrite L in C. unfold of_map_among, road_among, road_any, road_match in C. cbn in C.
  destruct (Rle_dec 100 3) as [?|?]; [lra|]. cbn in C.
  enough (Some lane10 = None) by discriminate. apply C; [|exact D].
  intros l c. unfold road_canonical. destruct (Z.eq_dec (l_id l) 1) eqn:E; [|discriminate].
  intros H. injection H as <-. rewrite E. reflexivity.
Qed.
(** The entity has the direction asked for. *)
Definition C176_direction_claim : Prop :=
  forall canonicalize on_map match_among match_any reach e p n, consistent on_map e ->
  teleport canonicalize on_map match_among match_any reach e (World p) = Done n ->
  of_map_among canonicalize match_among match_any p (s_box (e_status e)) (lane_ids e)
    (crosswalks (s_kind (e_status e))) (reach e) = None ->
  p_turn (s_pose (e_status n)) = p_turn p.
Theorem C176_direction_refuted : ~ C176_direction_claim.
Proof.
  intros C. set (far := {| p_x := 500; p_y := 100; p_z := 7; p_turn := {| t_cos := 0; t_sin := 1 |} |}).
  assert (K : consistent road_pose (car 0 Vehicle)) by (repeat split).
  destruct (C176_on_lane road_canonical road_pose road_among road_any one_metre (car 0 Vehicle) far lane10
              eq_refl K road_canonical_form) as (n & D & _ & _ & _ & _ & W & _).
  specialize (C road_canonical road_pose road_among road_any one_metre (car 0 Vehicle) far n K D).
  rewrite W in C. unfold of_map_among, road_among, road_any, road_match in C. cbn in C.
  destruct (Rle_dec 100 3) as [?|?]; [lra|]. specialize (C eq_refl). injection C. lra.
Qed.
(** Offsets of a RelativeWorldPosition are along the axes of the world. *)
Definition C176_relative_claim : Prop :=
  forall canonicalize on_map match_among match_any reach e r dx dy dz o n, e_lane e = None ->
  consistent on_map e ->
  teleport canonicalize on_map match_among match_any reach e (RelativeWorld r dx dy dz o) = Done n ->
  named_point on_map (RelativeWorld r dx dy dz o) (p_x (s_pose (e_status n))) (p_y (s_pose (e_status n))).
Theorem C176_relative_refuted : ~ C176_relative_claim.
Proof.
  intros C. set (r := {| p_x := 0; p_y := 100; p_z := 0; p_turn := {| t_cos := 0; t_sin := 1 |} |}).
  set (e := {| e_status := fresh Vehicle 1 0 "car" 5 r; e_lane := None |}).
  assert (K : consistent road_pose e) by (split; reflexivity).
  destruct (C176_object road_canonical road_pose road_among road_any one_metre e r 20 0 0 straight eq_refl K)
    as (n & D & _ & _ & N & _).
  specialize (C road_canonical road_pose road_among road_any one_metre e r 20 0 0 straight n eq_refl K D).
  destruct C as [C _]. destruct N as [N _]. rewrite N in C. cbn in C. lra.
Qed.
(** The ego cannot be teleported once the scenario runs. *)
Definition C176_ego_claim : Prop :=
  forall canonicalize on_map match_among match_any reach e q, s_kind (e_status e) = Ego ->
  0 < s_time (e_status e) ->
  teleport canonicalize on_map match_among match_any reach e q = Threw.
Theorem C176_ego_refuted : ~ C176_ego_claim.
Proof.
  intros C.
  specialize (C road_canonical road_pose road_among road_any one_metre (car 3 Ego) (Lane lane10) eq_refl).
  pose proof (C176_lane road_canonical road_pose road_among road_any one_metre (car 3 Ego) lane10) as T.
  change (road_canonical lane10) with (Some lane10) in T. destruct T as (n & D & _).
  rewrite C in D; [discriminate|]. cbn. lra.
Qed.
(** An entity can be added at every position whose place is known. *)
Definition C177_relative_claim : Prop :=
  forall canonicalize on_map match_among match_any reach k st t nm box d r dx dy dz o,
  add canonicalize on_map match_among match_any reach k st t nm box d (RelativeWorld r dx dy dz o) <> Threw.
Theorem C177_relative_refuted : ~ C177_relative_claim.
Proof.
  intros C. apply (C road_canonical road_pose road_among road_any one_metre Vehicle 1%Z 0 "car"%string 5%Z 1
                     (road_pose lane10) 1 1 0 straight). reflexivity.
Qed.

(** A car on the road, and one off it. *)
Example C176_example :
  consistent road_pose (car 0 Vehicle) /\ e_lane (car 0 Vehicle) = Some lane10 /\
  canonical_form road_canonical lane10 /\
  (exists n, history road_canonical road_pose road_among road_any one_metre (car 0 Vehicle)
     [WriteTime 1; Teleport (Lane lane10); SetLaneletPose no_lane idle] = Done n) /\
  of_map road_canonical road_any (road_pose {| l_id := 0; l_s := 4; l_offset := 100; l_yaw := 0 |}) 5 false 1
    = None.
Proof.
  split; [repeat split|]. split; [reflexivity|]. split; [apply road_canonical_form|]. split.
  - eexists. cbn [history perform]. change (teleport road_canonical road_pose road_among road_any one_metre
      (write_time (car 0 Vehicle) 1) (Lane lane10)) with
      (set_lane road_pose (write_time (car 0 Vehicle) 1) lane10 idle).
    unfold set_lane. rewrite replace_same by repeat split.
    cbn [history perform]. unfold set_lanelet_pose, of_lane. destruct lane_pose_dec; [|contradiction].
    reflexivity.
  - unfold of_map, road_any, road_match. cbn. destruct (Rle_dec 100 3); [lra|reflexivity].
Qed.

Print Assumptions C175_consistent.
Print Assumptions C175_spawned.
Print Assumptions C176_lane.
Print Assumptions C176_world.
Print Assumptions C176_on_lane.
Print Assumptions C176_object.
Print Assumptions C176_ego_guard.
Print Assumptions C177_lane.
Print Assumptions C177_world.
Print Assumptions C177_world_off.
Print Assumptions C177_object.
Print Assumptions C178_same.
Print Assumptions C178_off.
Print Assumptions C178_ego.
Print Assumptions C178_not_ego.
Print Assumptions C176_match_refuted.
Print Assumptions C176_direction_refuted.
Print Assumptions C176_relative_refuted.
Print Assumptions C176_ego_refuted.
Print Assumptions C177_relative_refuted.
