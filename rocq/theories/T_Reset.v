(** * Theorems about resetting the behaviour of an entity (C183). *)
From Coq Require Import String List Bool ZArith Reals Lra Lia.
From Verif Require Import M_Status S_Status T_Status M_Reset.
Import ListNotations.
Local Open Scope R_scope.

(** The cell of a name. *)
Definition entity_of (n : string) (m : manager) : option cell :=
  match address n (m_names m) with Some a => m_cells m a | None => None end.
(** Every name has a cell of its own, below the next free address. *)
Definition sound (m : manager) : Prop :=
  forall n a, address n (m_names m) = Some a -> m_cells m a <> None /\ (a < m_next m)%nat /\
              forall n', address n' (m_names m) = Some a -> n' = n.
Definition driven (k : kind) : Prop := k = Vehicle \/ k = Pedestrian.

Lemma address_removed : forall n l,
  address n (filter (fun p : string * nat => if string_dec (fst p) n then false else true) l) = None.
Proof.
  intros n. induction l as [|[x a] l IH]; [reflexivity|]. cbn [filter fst].
  destruct (string_dec x n) as [|N]; [exact IH|]. cbn [address].
  destruct (string_dec x n); [contradiction|exact IH].
Qed.
Lemma address_other : forall n o l, o <> n ->
  address o (filter (fun p : string * nat => if string_dec (fst p) n then false else true) l) = address o l.
Proof.
  intros n o l N. induction l as [|[x a] l IH]; [reflexivity|]. cbn [filter fst address].
  destruct (string_dec x n) as [->|M].
  - rewrite IH. destruct string_dec; [congruence|reflexivity].
  - cbn [address]. rewrite IH. reflexivity.
Qed.

Section Reset.
  Variable canonicalize : lane_pose -> option lane_pose.
  Variable on_map : lane_pose -> pose.
  Variable match_any : pose -> Z -> bool -> R -> option lane_pose.
  Variable plugin_exists : string -> bool.
  Variable distance : Z -> R.
  Variable box_of : Z -> Z.
  Variable subtype_of : Z -> Z.
  Let reset' := reset canonicalize on_map match_any plugin_exists distance box_of subtype_of.
  Let reset_with' := reset_with canonicalize on_map match_any plugin_exists distance box_of subtype_of.

  (** Resetting the behaviour of a vehicle or pedestrian reads freed memory, always. *)
  Theorem C183_undefined : forall n plugin m c,
    entity_of n m = Some c -> driven (s_kind (e_status (c_entity c))) -> reset' n plugin m = Undefined.
  Proof.
    intros n plugin m c F D. unfold reset', reset, reset_with. unfold entity_of in F.
    destruct (address n (m_names m)) as [a|] eqn:A; [|discriminate]. unfold read at 1. rewrite F.
    assert (R : read (despawn n m) a = Undefined).
    { unfold read, despawn. rewrite A. cbn. unfold set_cell. destruct Nat.eq_dec; [reflexivity|contradiction]. }
    rewrite R. destruct D as [-> | ->]; reflexivity.
  Qed.
  (** It is refused for the ego, for objects and for names that are not there. *)
  Theorem C183_refused : forall n plugin m, sound m ->
    match entity_of n m with
    | None => True
    | Some c => ~ driven (s_kind (e_status (c_entity c)))
    end -> reset' n plugin m = Error.
  Proof.
    intros n plugin m S H. unfold reset', reset, reset_with, entity_of in *.
    destruct (address n (m_names m)) as [a|] eqn:A; [|reflexivity]. destruct (S n a A) as [L _].
    unfold read at 1. destruct (m_cells m a) as [c|]; [|contradiction].
    destruct (s_kind (e_status (c_entity c))) eqn:K; try reflexivity; exfalso; apply H;
      [left|right]; reflexivity.
  Qed.
  (** What it is meant to do, and would do with a copy of the status: the new entity has the behaviour asked
      for and the old one's name, kind, parameters, point, time, speed, acceleration and jerk; and no other
      entity is touched. What the old one had counted and its target speed are lost. *)
  Theorem C183_meant : forall n plugin m c, sound m ->
    entity_of n m = Some c -> driven (s_kind (e_status (c_entity c))) ->
    s_name (e_status (c_entity c)) = n -> plugin_exists plugin = true ->
    exists m' c', reset_with' true n plugin m = Ok m' /\ entity_of n m' = Some c' /\
      c_plugin c' = plugin /\ c_parameters c' = c_parameters c /\
      s_name (e_status (c_entity c')) = n /\
      s_kind (e_status (c_entity c')) = s_kind (e_status (c_entity c)) /\
      s_time (e_status (c_entity c')) = s_time (e_status (c_entity c)) /\
      at_point (s_pose (e_status (c_entity c))) (c_entity c') /\ consistent on_map (c_entity c') /\
      a_speed (s_action (e_status (c_entity c'))) = a_speed (s_action (e_status (c_entity c))) /\
      a_acceleration (s_action (e_status (c_entity c'))) =
        a_acceleration (s_action (e_status (c_entity c))) /\
      a_jerk (s_action (e_status (c_entity c'))) = a_jerk (s_action (e_status (c_entity c))) /\
      c_travelled c' = 0 /\ c_still c' = 0 /\ c_target c' = None /\
      forall o, o <> n -> entity_of o m' = entity_of o m.
  Proof.
    intros n plugin m c S F D N P. unfold reset_with', reset_with.
    unfold entity_of in F. destruct (address n (m_names m)) as [a|] eqn:A; [|discriminate].
    unfold read at 1. rewrite F.
    assert (Sp : exists e, spawned canonicalize on_map match_any
        (fresh (s_kind (e_status (c_entity c))) (subtype_of (c_parameters c)) (s_time (e_status (c_entity c)))
           n (box_of (c_parameters c)) (s_pose (e_status (c_entity c)))) (distance (c_parameters c)) = e /\
        s_name (e_status e) = n /\ s_kind (e_status e) = s_kind (e_status (c_entity c)) /\
        s_time (e_status e) = s_time (e_status (c_entity c)) /\
        at_point (s_pose (e_status (c_entity c))) e /\ consistent on_map e).
    { eexists. split; [reflexivity|].
      pose proof (C175_spawned canonicalize on_map match_any
        (fresh (s_kind (e_status (c_entity c))) (subtype_of (c_parameters c)) (s_time (e_status (c_entity c)))
           n (box_of (c_parameters c)) (s_pose (e_status (c_entity c)))) (distance (c_parameters c)))
        as (C1 & (C2 & C3 & _) & C4).
      split; [exact C2|]. split; [exact C3|].
      split; [unfold spawned, make; destruct of_map; reflexivity|]. split; [exact C4|exact C1]. }
    destruct Sp as (e & Es & E1 & E2 & E3 & E4 & E5).
    assert (Dn : address n (m_names (despawn n m)) = None).
    { unfold despawn. rewrite A. apply address_removed. }
    assert (Sw : spawn canonicalize on_map match_any plugin_exists distance box_of subtype_of
        (s_kind (e_status (c_entity c))) n (s_pose (e_status (c_entity c))) (c_parameters c)
        (s_time (e_status (c_entity c))) plugin (despawn n m) =
        Ok {| m_cells := set_cell (m_next (despawn n m))
                (Some {| c_entity := e; c_travelled := 0; c_still := 0; c_target := None;
                         c_parameters := c_parameters c; c_plugin := plugin |}) (m_cells (despawn n m));
              m_next := Datatypes.S (m_next (despawn n m));
              m_names := (n, m_next (despawn n m)) :: m_names (despawn n m) |}).
    { unfold spawn. rewrite P, Dn, Es. reflexivity. }
    assert (Ad : forall b l, address n ((n, b) :: l) = Some b).
    { intros. cbn. destruct string_dec; [reflexivity|contradiction]. }
    assert (Sc : forall b x f, set_cell b x f b = x).
    { intros. unfold set_cell. destruct Nat.eq_dec; [reflexivity|contradiction]. }
    assert (Ot : forall o x y, o <> n ->
      entity_of o {| m_cells := set_cell (m_next (despawn n m)) x
                       (set_cell (m_next (despawn n m)) y (m_cells (despawn n m)));
                     m_next := Datatypes.S (m_next (despawn n m));
                     m_names := (n, m_next (despawn n m)) :: m_names (despawn n m) |} = entity_of o m).
    { intros o x y O. unfold entity_of. cbn [m_names m_cells address].
      destruct (string_dec n o); [congruence|]. unfold despawn. rewrite A. cbn [m_names m_cells m_next].
      rewrite address_other by exact O. destruct (address o (m_names m)) as [b|] eqn:B; [|reflexivity].
      destruct (S o b B) as (_ & L & _). destruct (S n a A) as (_ & _ & U).
      unfold set_cell. destruct (Nat.eq_dec b (m_next m)); [lia|]. destruct (Nat.eq_dec b a) as [->|]; [|reflexivity].
      exfalso. apply O. apply U. exact B. }
    destruct D as [D|D]; rewrite D in Sw |- *; cbn iota beta; rewrite Sw; cbn [m_names m_cells m_next];
      rewrite Ad, Sc; eexists; eexists;
      (split; [reflexivity|]); (split; [unfold entity_of; cbn [m_names m_cells]; rewrite Ad, Sc; reflexivity|]);
      cbn [c_plugin c_parameters c_entity with_values c_travelled c_still c_target];
      (split; [reflexivity|]); (split; [reflexivity|]);
      (split; [exact E1|]); (split; [cbn; congruence|]); (split; [exact E3|]); (split; [exact E4|]);
      (split; [unfold consistent in *; cbn [e_lane write_action]; destruct (e_lane e); exact E5|]);
      repeat (split; [reflexivity|]); intros o O; apply Ot; exact O.
  Qed.
End Reset.

(** Resetting the behaviour of an entity that is there is defined. *)
Definition C183_claim : Prop :=
  forall canonicalize on_map match_any plugin_exists distance box_of subtype_of n plugin m,
  sound m -> entity_of n m <> None ->
  reset canonicalize on_map match_any plugin_exists distance box_of subtype_of n plugin m <> Undefined.
Definition one_car : manager :=
  {| m_cells := fun a => match a with
                         | O => Some {| c_entity := car 0 Vehicle; c_travelled := 100; c_still := 0;
                                        c_target := Some 10; c_parameters := 5; c_plugin := "tree" |}
                         | _ => None
                         end;
     m_next := 1; m_names := [("car"%string, 0%nat)] |}.
Lemma one_car_sound : sound one_car.
Proof.
  intros n a H. cbn [m_names one_car address] in H. destruct string_dec; [|discriminate].
  injection H as <-. split; [discriminate|]. split; [cbn; lia|].
  intros n' H. cbn [m_names one_car address] in H. destruct (string_dec "car" n'); [|discriminate]. congruence.
Qed.
Theorem C183_refuted : ~ C183_claim.
Proof.
  intros C. apply (C road_canonical road_pose road_any (fun _ => true) (fun _ => 1) (fun p => p) (fun p => p)
                     "car"%string "other"%string one_car one_car_sound); [discriminate|].
  eapply C183_undefined; [reflexivity|left; reflexivity].
Qed.
Example C183_example : sound one_car /\
  (exists c, entity_of "car" one_car = Some c /\ driven (s_kind (e_status (c_entity c))) /\
             s_name (e_status (c_entity c)) = "car"%string).
Proof.
  split; [apply one_car_sound|]. eexists. split; [reflexivity|]. split; [left; reflexivity|reflexivity].
Qed.
Print Assumptions C183_undefined.
Print Assumptions C183_refused.
Print Assumptions C183_meant.
Print Assumptions C183_refuted.
