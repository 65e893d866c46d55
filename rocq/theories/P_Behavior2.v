(** * Frames and histories of the trees *)

From Coq Require Import String List Bool QArith Qminmax Lqa Lia.
From Verif Require Import M_Behavior S_Behavior P_Behavior.
Import ListNotations.
Open Scope string_scope.

Lemma leaf_eqb_eq : forall a b, leaf_eqb a b = true -> a = b.
Proof. destruct a, b; easy. Qed.

Lemma leaf_eqb_refl : forall a, leaf_eqb a a = true.
Proof. destruct a; reflexivity. Qed.

Lemma leaf_name_not_root : forall l, String.eqb (leaf_name l) "root" = false.
Proof. destruct l; reflexivity. Qed.

Definition tick_rule (order : list leaf) (before : leaf -> string)
  (at_ : position -> node leaf -> string -> Prop) : Prop :=
  forall (S : Type) (act : leaf -> request -> S -> option (bt_status * S)) q t cur r s,
    at_ q t cur ->
    leaves before at_ q (turn act (consulted order q) r s)
      (tick leaf_name act t (Context r cur s)).

(** The tree's frame and the list's. *)
Definition same_frame {S} (at_ : position -> node leaf -> string -> Prop)
  (a : seen S * position) (b : updated leaf S) : Prop :=
  match a, b with
  | (Did name r s n, q), Returned t c n' => c = Context r name s /\ n = n' /\ at_ q t name
  | (Failed, _), Threw => True
  | (Endless, _), Looping => True
  | _, _ => False
  end.

Lemma frame_refines : forall order before at_, tick_rule order before at_ ->
  forall (S : Type) (act : leaf -> request -> S -> option (bt_status * S)) fuel done q t cur r s,
    at_ q t cur ->
    same_frame at_ (list_frame order before act fuel done q r s)
      (update leaf_name act fuel done t (Context r cur s)).
Proof.
  intros order before at_ R S act fuel.
  induction fuel as [|fuel IH]; intros done q t cur r s A; [exact I|].
  cbn [list_frame update]. pose proof (R S act q t cur r s A) as L.
  destruct (turn act (consulted order q) r s) as [[l st r1 s1 | r1 s1]|] eqn:T;
    cbn [leaves] in L.
  - destruct (turn_in _ _ _ _ _ _ _ _ T) as [I [-> | ->]].
    + destruct L as (t' & -> & A'). cbn [ctx_action]. rewrite leaf_name_not_root.
      cbn [same_frame]. repeat split. exact A'.
    + destruct L as (_ & t' & -> & A'). cbn [ctx_action]. destruct q as [|k]; cbn [is_busy] in *.
      * destruct (before l =? "root") eqn:B; [apply IH; exact A'|].
        cbn [same_frame]. repeat split. exact A'.
      * destruct (leaf_eqb k l) eqn:K.
        -- rewrite leaf_name_not_root. cbn [same_frame]. repeat split. exact A'.
        -- destruct (before l =? "root") eqn:B; [apply IH; exact A'|].
           cbn [same_frame]. repeat split. exact A'.
  - destruct L as (t' & -> & A'). cbn [ctx_action]. change ("root" =? "root") with true.
    cbn iota. apply IH. exact A'.
  - rewrite L. exact I.
Qed.

Lemma history_refines : forall order before at_, tick_rule order before at_ ->
  forall (S : Type) fuel (cs : list (circumstances S)) q t cur, at_ q t cur ->
    tree_history fuel t cur cs = list_history order before fuel q cs.
Proof.
  intros order before at_ R S fuel cs.
  induction cs as [|c cs IH]; intros q t cur A; [reflexivity|].
  cbn [tree_history list_history].
  pose proof (frame_refines order before at_ R S (c_act c) fuel 0 q t cur (c_request c) (c_state c) A)
    as F.
  destruct (list_frame order before (c_act c) fuel 0 q (c_request c) (c_state c)) as [[a r s n| |] q'];
    destruct (update leaf_name (c_act c) fuel 0 t (Context (c_request c) cur (c_state c)))
      as [t' c' n'| |]; cbn [same_frame] in F; try contradiction; try reflexivity.
  destruct F as (-> & -> & A'). cbn [ctx_action ctx_request ctx_state]. f_equal.
  apply IH. exact A'.
Qed.

Lemma vehicle_rule : tick_rule vehicle_order before_vehicle vehicle_at.
Proof. intros S act. apply vehicle_tick. Qed.

Lemma pedestrian_rule : tick_rule pedestrian_order before_pedestrian pedestrian_at.
Proof. intros S act. apply pedestrian_tick. Qed.

Definition position_of (t : node leaf) : position :=
  match in_progress t with Some l => Busy l | None => Free end.

Lemma vehicle_position : forall q t cur, vehicle_at q t cur -> position_of t = q.
Proof.
  intros [|l] t cur A.
  - destruct A as (st & NR & ->). destruct st; reflexivity.
  - destruct A as (I & -> & ->). cbn in I.
    destruct I as [<- | [<- | [<- | [<- | [<- | [<- | [<- | [<- | [<- | []]]]]]]]]]; reflexivity.
Qed.

Lemma pedestrian_position : forall q t cur, pedestrian_at q t cur -> position_of t = q.
Proof.
  intros [|l] t cur A.
  - destruct A as (st & NR & ->). destruct st; reflexivity.
  - destruct A as (I & -> & ->). cbn in I.
    destruct I as [<- | [<- | [<- | []]]]; reflexivity.
Qed.

Lemma reachable_at : forall order before at_, tick_rule order before at_ ->
  (forall q t cur, at_ q t cur -> position_of t = q) ->
  forall start, at_ Free start "" ->
  forall t cur, reachable start t cur -> at_ (position_of t) t cur.
Proof.
  intros order before at_ R P start A0 t cur H.
  induction H as [|S t cur act fuel c t' c' n H IH C U]; [rewrite (P _ _ _ A0); exact A0|].
  destruct c as [r cur' s]. cbn in C. subst cur'.
  pose proof (frame_refines order before at_ R S act fuel 0 _ t cur r s IH) as F. rewrite U in F.
  destruct (list_frame order before act fuel 0 (position_of t) r s) as [[a r' s' m| |] q'];
    cbn [same_frame] in F; try contradiction.
  destruct F as (-> & _ & A). cbn [ctx_action]. rewrite (P _ _ _ A). exact A.
Qed.

Lemma vehicle_reached : forall t cur, reachable vehicle_tree t cur ->
  vehicle_at (position_of t) t cur.
Proof.
  apply (reachable_at vehicle_order before_vehicle vehicle_at vehicle_rule).
  - apply vehicle_position.
  - exists Idle. split; [discriminate | reflexivity].
Qed.

Lemma pedestrian_reached : forall t cur, reachable pedestrian_tree t cur ->
  pedestrian_at (position_of t) t cur.
Proof.
  apply (reachable_at pedestrian_order before_pedestrian pedestrian_at pedestrian_rule).
  - apply pedestrian_position.
  - exists Idle. split; [discriminate | reflexivity].
Qed.

(** A frame of a reachable vehicle, as the list's. *)
Lemma vehicle_frame_list : forall (S : Type) (act : leaf -> request -> S -> option (bt_status * S))
  fuel t cur r s,
  reachable vehicle_tree t cur ->
  same_frame vehicle_at (list_frame vehicle_order before_vehicle act fuel 0 (position_of t) r s)
    (update leaf_name act fuel 0 t (Context r cur s)).
Proof.
  intros S act fuel t cur r s H.
  apply (frame_refines vehicle_order before_vehicle vehicle_at vehicle_rule).
  apply vehicle_reached in H. exact H.
Qed.

Lemma pedestrian_frame_list : forall (S : Type) (act : leaf -> request -> S -> option (bt_status * S))
  fuel t cur r s,
  reachable pedestrian_tree t cur ->
  same_frame pedestrian_at
    (list_frame pedestrian_order before_pedestrian act fuel 0 (position_of t) r s)
    (update leaf_name act fuel 0 t (Context r cur s)).
Proof.
  intros S act fuel t cur r s H.
  apply (frame_refines pedestrian_order before_pedestrian pedestrian_at pedestrian_rule).
  apply pedestrian_reached in H. exact H.
Qed.
