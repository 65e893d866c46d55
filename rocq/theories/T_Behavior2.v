(** * C109 to C112: what a vehicle that follows its lane decides *)

From Coq Require Import String List Bool QArith Qminmax Lqa Lia.
From Verif Require Import M_Behavior S_Behavior P_Behavior P_Behavior2 P_Behavior3 P_Behavior4
  P_Behavior5.
Import ListNotations.
Open Scope Q_scope.

Section Decisions.
  Context {E : Type}.
  Variables (w : world E) (p : settings).

  (** A vehicle that follows its lane: no other request, on a lane, not moving backwards, with
      target speeds that are not negative. *)
  Definition cruising (r : request) (s : state E) : Prop :=
    (r = NoRequest \/ r = FollowLaneR) /\ in_lane E w (entity E s) = true
    /\ 0 <= speed E w (entity E s) /\ orderly w p (entity E s).

  Lemma cruising_following : forall r s, cruising r s -> lane_following r = true.
  Proof using. intros r s ([-> | ->] & _); reflexivity. Qed.

  (** The frame of [t] ended after one pass in which [l] drove with target speed [x]; [next] is
      the action in progress after it. *)
  Definition drove (t : node leaf) (cur : string) (r : request) (s : state E) (l : leaf) (x : Q)
    (action : string) (next : option leaf) : Prop :=
    forall k, exists t' r' s',
      vehicle_frame E w p (1 + k) t (Context r cur s) = Returned t' (Context r' action s') 1
      /\ entity E s' = advance E w x (entity E s) /\ moves E s' = (l, Drive x) :: moves E s
      /\ in_progress t' = next /\ (r' = r \/ r' = NoRequest).

  (** ** C109 *)

  (** The action and the speed are the ones of the table of decisions, in one pass. *)
  Theorem C109_decision : forall t cur r s,
    reachable vehicle_tree t cur -> in_progress t = None \/ in_progress t = Some FollowLane ->
    cruising r s ->
    exists l x, decision w p (entity E s) l x
      /\ ((l = Yield -> right_of_way E w = true) /\ drove t cur r s l x (leaf_name l) (Some l)
          \/ l = Yield /\ right_of_way E w = false
             /\ drove t cur r s l x "stop_at_crossing_entity" None).
  Proof using.
    intros t cur r s R C (RQ & L & V & O).
    assert (F : lane_following r = true) by (destruct RQ as [-> | ->]; reflexivity).
    destruct (choosing_turn w p t r s C F) as (s0 & T & E0 & M0 & Q).
    rewrite <- E0 in L, V, O.
    destruct (decides w p r s0 F L V O) as (l & x & st & D & ST & TL). rewrite TL in T.
    assert (IL : In l lane_order) by (apply (turn_in _ _ _ _ _ _ _ _ TL)).
    assert (IV : In l vehicle_order) by (right; right; exact IL).
    exists l, x. rewrite <- E0. split; [exact D|].
    assert (RR : forall l : leaf, match l with FollowLane => r | _ => NoRequest end = r
                           \/ match l with FollowLane => r | _ => NoRequest end = NoRequest)
      by (intros []; auto).
    destruct ST as [(-> & YR) | (-> & RW & ->)].
    - left. split; [exact YR|]. intros k. cbn [Nat.add].
      pose proof (acts_frame w p (position_of t) r s k l Running _ _ T (or_introl eq_refl) IV) as LF.
      destruct (vehicle_did w p t cur r s (S k) _ _ _ _ _ R LF) as (t' & U & PR & _).
      exists t'. eexists. eexists. split; [exact U|]. cbn [entity moves moved].
      rewrite <- E0, <- M0. split; [reflexivity|]. split; [reflexivity|]. split; [exact PR | apply RR].
    - right. split; [reflexivity|]. split; [exact RW|]. intros k. cbn [Nat.add].
      assert (B : is_busy (position_of t) Yield = false) by (destruct Q as [-> | ->]; reflexivity).
      assert (OK : Success = Running
                   \/ Success = Success /\ is_busy (position_of t) Yield = false /\ Yield <> LaneChange).
      { right. split; [reflexivity|]. split; [exact B | discriminate]. }
      pose proof (acts_frame w p (position_of t) r s k Yield Success _ _ T OK IV) as LF.
      destruct (vehicle_did w p t cur r s (S k) _ _ _ _ _ R LF) as (t' & U & PR & _).
      exists t'. eexists. eexists. split; [exact U|]. cbn [entity moves moved].
      rewrite <- E0, <- M0. split; [reflexivity|]. split; [reflexivity|]. split; [exact PR | right; reflexivity].
  Qed.

  (** There is one decision only. *)
  Theorem C109_unique : forall e l x l' x',
    decision w p e l x -> decision w p e l' x' -> l = l' /\ x == x'.
  Proof using. apply decision_unique. Qed.

  (** A consequence: the action of the table is the one taken. *)
  Lemma decided : forall t cur r s l x,
    reachable vehicle_tree t cur -> in_progress t = None \/ in_progress t = Some FollowLane ->
    cruising r s -> decision w p (entity E s) l x ->
    exists x', x' == x
      /\ ((l = Yield -> right_of_way E w = true) /\ drove t cur r s l x' (leaf_name l) (Some l)
          \/ l = Yield /\ right_of_way E w = false
             /\ drove t cur r s l x' "stop_at_crossing_entity" None).
  Proof using.
    intros t cur r s l x R C CR D. destruct (C109_decision t cur r s R C CR) as (l' & x' & D' & H).
    destruct (C109_unique _ _ _ _ _ D' D) as [-> X]. exists x'. split; [exact X | exact H].
  Qed.

  (** An action in progress that goes on. *)
  Lemma goes_on : forall t cur r s l x,
    reachable vehicle_tree t cur -> in_progress t = Some l ->
    vehicle_act E w p l r s
    = Some (Running, moved E l (Drive x) (advance E w x (entity E s)) s) ->
    drove t cur r s l x (leaf_name l) (Some l).
  Proof using.
    intros t cur r s l x R P A k. cbn [Nat.add]. pose proof (position_progress t _ P) as Q.
    pose proof (vehicle_reached t cur R) as AT. rewrite Q in AT. destruct AT as (I & _ & _).
    assert (T : turn (vehicle_act E w p) (consulted vehicle_order (position_of t)) r s
                = Some (Acts l Running r (moved E l (Drive x) (advance E w x (entity E s)) s))).
    { rewrite Q. assert (C : exists rest, consulted vehicle_order (Busy l) = l :: rest).
      { cbn in I. destruct I as [<- | [<- | [<- | [<- | [<- | [<- | [<- | [<- | [<- | []]]]]]]]]];
          eexists; reflexivity. }
      destruct C as (rest & ->). cbn [turn]. rewrite A. reflexivity. }
    pose proof (acts_frame w p _ _ _ k l Running _ _ T (or_introl eq_refl) I) as LF.
    destruct (vehicle_did w p t cur r s (S k) _ _ _ _ _ R LF) as (t' & U & PR & _).
    exists t'. eexists. eexists. split; [exact U|]. cbn [entity moves moved].
    split; [reflexivity|]. split; [reflexivity|]. split; [exact PR | left; reflexivity].
  Qed.

  (** ** C110: red lights *)

  (** A red light within sight, nobody to follow and no need to yield: the vehicle stops for it. *)
  Theorem C110_stops : forall t cur r s d,
    reachable vehicle_tree t cur -> in_progress t = None \/ in_progress t = Some FollowLane ->
    cruising r s -> see_around p = true -> right_of_way E w = false ->
    (forall g v, ~ gap_to_follow w p (entity E s) g v) ->
    red_light w (entity E s) d ->
    exists x, stopping_limited w p (entity E s) d x
      /\ drove t cur r s StopAtTrafficLight x "stop_at_traffic_light" (Some StopAtTrafficLight).
  Proof using.
    intros t cur r s d R C CR A N G RL.
    assert (H : hindered w p (entity E s)).
    { split; [exact A|]. right. right. left. destruct RL as [-> RL]. exact RL. }
    destruct (C109_decision t cur r s R C CR) as (l & x & D & DR).
    assert (D' : l = StopAtTrafficLight /\ stopping_limited w p (entity E s) d x).
    { destruct D.
      - contradiction.
      - congruence.
      - exfalso. destruct H2 as (X & _). exact (G _ _ X).
      - split; [reflexivity|]. destruct H3 as (X & _). destruct RL as (Y & _). rewrite X in Y.
        injection Y as ->. assumption.
      - exfalso. exact (H3 _ RL).
      - exfalso. exact (H3 _ RL).
      - exfalso. exact (H3 _ RL). }
    destruct D' as [-> ST]. exists x. split; [exact ST|].
    destruct DR as [[_ DR] | [X _]]; [exact DR | discriminate].
  Qed.

  (** Once it stops for the light it goes on doing so, as long as the light is red and nobody has
      the right of way. *)
  Theorem C110_keeps : forall t cur r s d,
    reachable vehicle_tree t cur -> in_progress t = Some StopAtTrafficLight ->
    cruising r s -> see_around p = true -> right_of_way E w = false ->
    red_light w (entity E s) d ->
    exists x, stopping_limited w p (entity E s) d x
      /\ drove t cur r s StopAtTrafficLight x "stop_at_traffic_light" (Some StopAtTrafficLight).
  Proof using.
    intros t cur r s d R P CR A N RL. pose proof (cruising_following r s CR) as F.
    destruct CR as (_ & L & V & _).
    destruct (light_decides w p r s F L V A N) as [(d' & x & RL' & ST & ACT) | [NR _]];
      [|exfalso; exact (NR _ RL)].
    assert (d' = d) as ->.
    { destruct RL as [X _], RL' as [Y _]. rewrite X in Y. injection Y as ->. reflexivity. }
    exists x. split; [exact ST|]. apply goes_on; assumption.
  Qed.

  (** The speed never exceeds the current one, and is zero when what is left to the light is
      shorter than the stop distance. *)
  Theorem C110_speed : forall e d x, stopping_limited w p e d x -> 0 <= speed E w e ->
    x <= speed E w e
    /\ (forall v, target_speed p = Some v -> x <= v)
    /\ (d - (length_ p / 2 + 1) < stop_distance E w e -> x <= 0).
  Proof using.
    intros e d x (b & B & C) V.
    assert (BV : b <= speed E w e) by (destruct B as [[_ B] | [_ B]]; lra).
    destruct C as [[N X] | (v & N & X)].
    - split; [lra|]. split; [intros u U; congruence|]. intros H. destruct B as [[_ B] | [B _]]; lra.
    - pose proof (Q.le_min_l v b). pose proof (Q.le_min_r v b).
      split; [lra|]. split; [intros u U; rewrite N in U; injection U as <-; lra|].
      intros H1. destruct B as [[_ B] | [B _]]; lra.
  Qed.

  (** Refuted: while it stops for a light it does not look at the entity ahead.  However small the
      gap, the vehicle keeps its speed as long as the light is further than the stop distance. *)
  Theorem C110_light_hides_front_refuted : forall t cur r s d,
    reachable vehicle_tree t cur -> in_progress t = Some StopAtTrafficLight ->
    cruising r s -> see_around p = true -> right_of_way E w = false ->
    red_light w (entity E s) d -> target_speed p = None ->
    stop_distance E w (entity E s) <= d - (length_ p / 2 + 1) ->
    forall g v, gap_to_follow w p (entity E s) g v ->
    exists x, x == speed E w (entity E s)
      /\ drove t cur r s StopAtTrafficLight x "stop_at_traffic_light" (Some StopAtTrafficLight).
  Proof using.
    intros t cur r s d R P CR A N RL TS FAR g v _.
    destruct (C110_keeps t cur r s d R P CR A N RL) as (x & (b & B & X) & DR). exists x.
    split; [|exact DR]. destruct X as [[_ X] | (y & Y & _)]; [|congruence].
    destruct B as [[B1 B2] | [_ B]]; lra.
  Qed.

  (** Refuted: while it follows an entity, or has decided to follow one that is beyond the light,
      it does not look at lights; behind an entity that is not slower than the target speed it
      passes the red light at its target speed. *)
  Theorem C110_front_hides_light_refuted : forall t cur r s g v a,
    reachable vehicle_tree t cur -> in_progress t = Some FollowFrontEntity ->
    cruising r s -> see_around p = true -> right_of_way E w = false ->
    gap_to_follow w p (entity E s) g v -> conflict E w (entity E s) = None ->
    stop_line E w (entity E s) = None -> aim w p (entity E s) a -> a <= v ->
    forall d, red_light w (entity E s) d ->
    exists x, x == a
      /\ drove t cur r s FollowFrontEntity x "follow_front_entity" (Some FollowFrontEntity).
  Proof using.
    intros t cur r s g v a R P CR A N G C S AM FA d _. pose proof (cruising_following r s CR) as F.
    destruct CR as (_ & L & V & (O1 & _)).
    assert (W : 0 <= wanted E w p (entity E s)) by (apply O1; apply aim_wanted; reflexivity).
    assert (FF : front_first w p (entity E s) g v).
    { split; [exact G|]. rewrite C, S. cbn. tauto. }
    destruct (front_decides w p r s F L V A N W) as [(g' & v' & x & FF' & FO & ACT) | [NF _]];
      [|exfalso; exact (NF _ _ FF)].
    destruct (front_unique w p _ _ _ _ _ FF FF') as [<- <-].
    exists x. split; [|apply goes_on; assumption].
    apply (following_unique w p (entity E s) g v); [exact FO|]. exists a. split; [exact AM|].
    left. split; [exact FA | reflexivity].
  Qed.

  (** The same when it is free to choose and the entity is near enough (or the light itself makes
      it look). *)
  Theorem C110_front_beyond_light_refuted : forall t cur r s g v a d,
    reachable vehicle_tree t cur -> in_progress t = None \/ in_progress t = Some FollowLane ->
    cruising r s -> see_around p = true -> right_of_way E w = false ->
    gap_to_follow w p (entity E s) g v -> conflict E w (entity E s) = None ->
    stop_line E w (entity E s) = None -> aim w p (entity E s) a -> a <= v ->
    red_light w (entity E s) d -> d < g ->
    exists x, x == a
      /\ drove t cur r s FollowFrontEntity x "follow_front_entity" (Some FollowFrontEntity).
  Proof using.
    intros t cur r s g v a d R P CR A N G C S AM FA RL _.
    assert (D : decision w p (entity E s) FollowFrontEntity a).
    { apply (D_front w p (entity E s) g v a).
      - split; [exact A|]. right. right. left. destruct RL as [-> RL]. exact RL.
      - exact N.
      - split; [exact G|]. rewrite C, S. cbn. tauto.
      - exists a. split; [exact AM|]. left. split; [exact FA | reflexivity]. }
    destruct (decided t cur r s _ _ R P CR D) as (x & X & [[_ DR] | [Y _]]); [|discriminate].
    exists x. split; [exact X | exact DR].
  Qed.

  (** Refuted: a vehicle that yields does not look at lights. *)
  Theorem C110_yield_hides_light_refuted : forall t cur r s d,
    reachable vehicle_tree t cur -> in_progress t = None \/ in_progress t = Some FollowLane ->
    cruising r s -> see_around p = true -> right_of_way E w = true ->
    red_light w (entity E s) d -> yield_line E w (entity E s) = None ->
    exists x, x == limit E w (entity E s) /\ drove t cur r s Yield x "yield" (Some Yield).
  Proof using.
    intros t cur r s d R P CR A N RL Y.
    assert (D : decision w p (entity E s) Yield (limit E w (entity E s))).
    { apply D_yield; [split; [exact A | left; exact N] | exact N|]. left. split; [exact Y | reflexivity]. }
    destruct (decided t cur r s _ _ R P CR D) as (x & X & [[_ DR] | (_ & Z & _)]); [|congruence].
    exists x. split; [exact X | exact DR].
  Qed.

  (** ** C111: behind another entity *)

  (** The entity ahead decides the speed, and FollowFrontEntity goes on as long as it is nearer
      than crossing entities and stop lines. *)
  Theorem C111_follows : forall t cur r s g v,
    reachable vehicle_tree t cur ->
    (in_progress t = None \/ in_progress t = Some FollowLane) /\ hindered w p (entity E s)
    \/ in_progress t = Some FollowFrontEntity ->
    cruising r s -> see_around p = true -> right_of_way E w = false ->
    front_first w p (entity E s) g v ->
    exists x, following w p (entity E s) g v x
      /\ drove t cur r s FollowFrontEntity x "follow_front_entity" (Some FollowFrontEntity).
  Proof using.
    intros t cur r s g v R P CR A N FF. pose proof (cruising_following r s CR) as F.
    pose proof CR as (_ & L & V & (O1 & _)).
    assert (W : 0 <= wanted E w p (entity E s)) by (apply O1; apply aim_wanted; reflexivity).
    destruct (front_decides w p r s F L V A N W) as [(g' & v' & x & FF' & FO & ACT) | [NF _]];
      [|exfalso; exact (NF _ _ FF)].
    destruct (front_unique w p _ _ _ _ _ FF FF') as [<- <-].
    destruct P as [[P H] | P].
    - destruct (decided t cur r s _ _ R P CR (D_front w p _ g v x H N FF FO))
        as (x' & X & [[_ DR] | [Y _]]); [|discriminate].
      exists x'. split; [|exact DR]. destruct FO as (a & AM & FO). exists a. split; [exact AM|].
      rewrite X. exact FO.
    - exists x. split; [exact FO|]. apply goes_on; assumption.
  Qed.

  (** Behind a slower entity: not backwards, not faster than the target speed, at most 2 m/s more
      than the entity ahead, 0 within the stop distance. *)
  Theorem C111_slower : forall e g v x a,
    following w p e g v x -> aim w p e a -> v < a -> 0 <= a ->
    0 <= x /\ x <= a /\ (0 <= v -> x <= v + 2)
    /\ (g <= stop_distance E w e -> x == 0)
    /\ (g < stop_distance E w e + length_ p + 5 -> 0 <= v -> x <= v).
  Proof using.
    intros e g v x a (a' & A' & H) A V P. rewrite (aim_unique w p _ _ _ A' A) in H.
    assert (M : forall y, 0 <= Qmin a (Qmax 0 y) /\ Qmin a (Qmax 0 y) <= a
                          /\ (0 <= y -> Qmin a (Qmax 0 y) <= y)).
    { intros y. pose proof (Q.le_max_l 0 y). pose proof (Q.le_min_l a (Qmax 0 y)).
      pose proof (Q.le_min_r a (Qmax 0 y)).
      split; [apply Q.min_glb; assumption|]. split; [assumption|]. intros Y.
      rewrite (Q.max_r 0 y Y) in *. assumption. }
    destruct H as [(X & _) | [(_ & G & X) | [(_ & G & G' & X) | (_ & G & X)]]]; [lra| | |].
    - repeat split; lra.
    - destruct (M (v + 2)) as (M1 & M2 & M3).
      split; [lra|]. split; [lra|]. split; [intros; rewrite X; apply M3; lra|]. split; intros; lra.
    - destruct (M v) as (M1 & M2 & M3).
      split; [lra|]. split; [lra|].
      split; [intros Z; specialize (M3 Z); lra|].
      split; [intros; lra|]. intros _ Z. specialize (M3 Z). lra.
  Qed.

  (** Refuted: behind an entity that is not slower than the target speed the gap does not matter. *)
  Theorem C111_faster_refuted : forall t cur r s g v a,
    reachable vehicle_tree t cur ->
    (in_progress t = None \/ in_progress t = Some FollowLane) /\ hindered w p (entity E s)
    \/ in_progress t = Some FollowFrontEntity ->
    cruising r s -> see_around p = true -> right_of_way E w = false ->
    front_first w p (entity E s) g v -> aim w p (entity E s) a -> a <= v ->
    g <= stop_distance E w (entity E s) ->
    exists x, x == a
      /\ drove t cur r s FollowFrontEntity x "follow_front_entity" (Some FollowFrontEntity).
  Proof using.
    intros t cur r s g v a R P CR A N FF AM FA G.
    destruct (C111_follows t cur r s g v R P CR A N FF) as (x & FO & DR). exists x.
    split; [|exact DR]. apply (following_unique w p (entity E s) g v); [exact FO|].
    exists a. split; [exact AM|]. left. split; [exact FA | reflexivity].
  Qed.

  (** ** C112: stop lines and crossing entities *)

  (** A stop line that comes first, before crossing entities and before the entity ahead. *)
  Theorem C112_stop_line : forall t cur r s d,
    reachable vehicle_tree t cur ->
    (in_progress t = None \/ in_progress t = Some FollowLane) /\ hindered w p (entity E s)
      /\ (forall g v, ~ front_first w p (entity E s) g v)
      /\ (forall d', ~ red_light w (entity E s) d')
    \/ in_progress t = Some StopAtStopLine ->
    cruising r s -> see_around p = true -> right_of_way E w = false ->
    stop_line_first w (entity E s) d ->
    exists x, at_line w p (entity E s) d x
      /\ drove t cur r s StopAtStopLine x "stop_at_stop_line" (Some StopAtStopLine).
  Proof using.
    intros t cur r s d R P CR A N FI. pose proof (cruising_following r s CR) as F.
    pose proof CR as (_ & L & V & _).
    destruct (line_decides w p r s F L V A N) as [(d' & x & FI' & AL & ACT) | [NF _]];
      [|exfalso; exact (NF _ FI)].
    assert (d' = d) as ->.
    { destruct FI as [X _], FI' as [Y _]. rewrite X in Y. injection Y as ->. reflexivity. }
    destruct P as [(P & H & NF & NL) | P].
    - destruct (decided t cur r s _ _ R P CR (D_line w p _ d x H N NF NL FI AL))
        as (x' & X & [[_ DR] | [Y _]]); [|discriminate].
      exists x'. split; [|exact DR].
      destruct AL as [(U1 & U2 & a & U3 & U4) | (U1 & b & U2 & U3)].
      + left. split; [exact U1|]. split; [exact U2|]. exists a. split; [exact U3|]. lra.
      + right. split; [exact U1|]. exists b. split; [exact U2|].
        destruct U3 as [[W1 W2] | (y & W1 & W2)].
        * left. split; [exact W1|]. lra.
        * right. exists y. split; [exact W1|]. rewrite X. exact W2.
    - exists x. split; [exact AL|]. apply goes_on; assumption.
  Qed.

  (** A crossing entity that comes first. *)
  Theorem C112_crossing : forall t cur r s d,
    reachable vehicle_tree t cur ->
    (in_progress t = None \/ in_progress t = Some FollowLane) /\ hindered w p (entity E s)
      /\ (forall g v, ~ front_first w p (entity E s) g v)
      /\ (forall d', ~ red_light w (entity E s) d')
      /\ (forall d', ~ stop_line_first w (entity E s) d')
    \/ in_progress t = Some StopAtCrossingEntity ->
    cruising r s -> see_around p = true -> right_of_way E w = false ->
    crossing_first w (entity E s) d ->
    exists x, stopping_limited w p (entity E s) d x
      /\ drove t cur r s StopAtCrossingEntity x "stop_at_crossing_entity" (Some StopAtCrossingEntity).
  Proof using.
    intros t cur r s d R P CR A N FI. pose proof (cruising_following r s CR) as F.
    pose proof CR as (_ & L & V & _).
    destruct (crossing_decides w p r s F L V A N) as [(d' & x & FI' & AL & ACT) | [NF _]];
      [|exfalso; exact (NF _ FI)].
    assert (d' = d) as ->.
    { destruct FI as [X _], FI' as [Y _]. rewrite X in Y. injection Y as ->. reflexivity. }
    destruct P as [(P & H & NF & NL & NS) | P].
    - destruct (decided t cur r s _ _ R P CR (D_crossing w p _ d x H N NF NL NS FI AL))
        as (x' & X & [[_ DR] | [Y _]]); [|discriminate].
      exists x'. split; [|exact DR]. destruct AL as (b & U2 & U3). exists b. split; [exact U2|].
      destruct U3 as [[W1 W2] | (y & W1 & W2)].
      + left. split; [exact W1|]. lra.
      + right. exists y. split; [exact W1|]. rewrite X. exact W2.
    - exists x. split; [exact AL|]. apply goes_on; assumption.
  Qed.

  (** Refuted: a stop line and a crossing entity at the same distance cancel each other, and the
      vehicle drives on at its target speed. *)
  Theorem C112_tie_refuted : forall t cur r s d d' a,
    reachable vehicle_tree t cur -> in_progress t = None \/ in_progress t = Some FollowLane ->
    cruising r s -> hindered w p (entity E s) -> right_of_way E w = false ->
    lane_front E w (entity E s) = None -> path_front E w (entity E s) = None ->
    light_line E w (entity E s) = None ->
    stop_line E w (entity E s) = Some d -> conflict E w (entity E s) = Some d' -> d == d' ->
    aim w p (entity E s) a ->
    exists x, x == a /\ drove t cur r s Yield x "stop_at_crossing_entity" None.
  Proof using.
    intros t cur r s d d' a R P CR H N LF PF LL SL CO X AM.
    assert (D : decision w p (entity E s) Yield a).
    { apply D_through; try assumption.
      - intros g v (G & _). inversion G; congruence.
      - intros u (U & _). congruence.
      - intros u (U & _ & V). rewrite SL in U. injection U as <-. apply V. rewrite CO. cbn. lra.
      - intros u (U & _ & V). rewrite CO in U. injection U as <-. apply V. rewrite SL. cbn. lra. }
    destruct (decided t cur r s _ _ R P CR D) as (x & Y & [[Z _] | (_ & _ & DR)]).
    - specialize (Z eq_refl). congruence.
    - exists x. split; [exact Y | exact DR].
  Qed.
End Decisions.
