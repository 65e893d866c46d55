(** The theorems about distances to obstacles. *)
From Coq Require Import List Bool ZArith Reals Lia Lra.
From Verif Require Import M_Obstacle S_Obstacle.
Import ListNotations.
Local Open Scope list_scope.
Local Open Scope R_scope.

Lemma nearer_least P Q best d : least P best -> least Q d -> least (fun x => P x \/ Q x) (nearer best d).
Proof.
  unfold nearer, least. intros B D. destruct d as [x|]; destruct best as [y|].
  - destruct B as (B & B'), D as (D & D'). destruct (Rlt_dec x y) as [L|L].
    + split; [right; exact D|]. intros z [Z|Z]; [specialize (B' z Z); lra|apply D', Z].
    + split; [left; exact B|]. intros z [Z|Z]; [apply B', Z|specialize (D' z Z); lra].
  - destruct D as (D & D'). split; [right; exact D|]. intros z [Z|Z]; [destruct (B z Z)|apply D', Z].
  - destruct B as (B & B'). split; [left; exact B|]. intros z [Z|Z]; [apply B', Z|destruct (D z Z)].
  - intros z [Z|Z]; [exact (B z Z)|exact (D z Z)].
Qed.
Lemma least_equiv P Q r : (forall x, P x <-> Q x) -> least P r -> least Q r.
Proof.
  intros E. destruct r as [d|]; cbn.
  - intros (H & H'). split; [apply E, H|]. intros x X. apply H', E, X.
  - intros H x X. apply (H x), E, X.
Qed.
Lemma single_least (d : option R) : least (fun x => d = Some x) d.
Proof. destruct d as [d|]; cbn; [split; [reflexivity|]; intros x X; injection X as <-; lra|discriminate]. Qed.
Lemma fold_least l : forall P best, least P best -> least (fun x => P x \/ In (Some x) l) (fold_left nearer l best).
Proof.
  induction l as [|d l IH]; intros P best B; cbn [fold_left].
  - revert B. apply least_equiv. cbn. tauto.
  - assert (X := IH _ _ (nearer_least _ _ _ _ B (single_least d))). revert X. apply least_equiv.
    intro x. cbn [In]. tauto.
Qed.
Lemma nearest_least l : least (fun x => In (Some x) l) (nearest l).
Proof.
  assert (X := fold_least l (fun _ => False) None (fun x (f : False) => f)). revert X. apply least_equiv. tauto.
Qed.
Lemma least_unique P a b : least P a -> least P b -> a = b.
Proof.
  destruct a as [x|], b as [y|]; cbn.
  - intros (A & A') (B & B'). f_equal. specialize (A' y B). specialize (B' x A). lra.
  - intros (A & _) B. destruct (B x A).
  - intros A (B & _). destruct (A y B).
  - reflexivity.
Qed.

(** *** C161: stop lines *)
(** The nearest line of a stop sign on the route that the spline crosses *)
Theorem C161_stop_line {Line} (collide : Line -> option R) length signs route :
  (0 < length -> least (stop_crossing collide signs route) (distance_to_stop_line collide length signs route))
  /\ (length <= 0 -> distance_to_stop_line collide length signs route = None).
Proof.
  unfold distance_to_stop_line. split; intro L; destruct (Rle_dec length 0); try lra; [|reflexivity].
  assert (X := nearest_least (map collide (stop_lines_on_path signs route))). revert X. apply least_equiv.
  intro x. rewrite in_map_iff. unfold stop_lines_on_path. split.
  - intros (line & C & I). apply in_flat_map in I. destruct I as (s & Is & I). apply in_flat_map in Is.
    destruct Is as (l & Il & Is). destruct (is_stop s) eqn:E; [|destruct I]. exists l, s, line. auto.
  - intros (l & s & line & Il & Is & E & I & C). exists line. split; [exact C|]. apply in_flat_map. exists s.
    rewrite E. split; [|exact I]. apply in_flat_map. exists l. auto.
Qed.

Lemma has_light {Line} (e : Element Line) light : existsb (Z.eqb light) (lights e) = true <-> In light (lights e).
Proof.
  rewrite existsb_exists. split.
  - intros (x & I & E). apply Z.eqb_eq in E. subst. exact I.
  - intro I. exists light. split; [exact I|apply Z.eqb_refl].
Qed.

Lemma first_crossed_some {Line} (collide : Line -> option R) l d : first_crossed collide l = Some d ->
  exists line, In (Some line) l /\ collide line = Some d.
Proof.
  induction l as [|[line|] l IH]; cbn; [discriminate| |].
  - destruct (collide line) eqn:C.
    + intro E. injection E as <-. exists line. auto.
    + intro E. destruct (IH E) as (x & I & X). eauto.
  - intro E. destruct (IH E) as (x & I & X). eauto.
Qed.
Lemma first_crossed_none {Line} (collide : Line -> option R) l line : first_crossed collide l = None ->
  In (Some line) l -> collide line = None.
Proof.
  induction l as [|[x|] l IH]; cbn; [intros _ []| |].
  - destruct (collide x) eqn:C; [discriminate|]. intros E [X|I]; [congruence|auto].
  - intros E [X|I]; [discriminate|auto].
Qed.

(** For one light, where a stop line of it is crossed, if there is such a place; an error exactly if no
    element of the map has the light. *)
Theorem C161_light {Line} (collide : Line -> option R) length elements light : 0 < length ->
  match distance_to_light collide length elements light with
  | Answers (Some d) => light_crossing collide elements light d
  | Answers None => forall x, ~ light_crossing collide elements light x
  | Throws => forall e, In e elements -> ~ In light (lights e)
  end.
Proof.
  intro L. unfold distance_to_light. destruct (Rle_dec length 0); [lra|]. unfold light_stop_lines.
  set (es := filter _ elements).
  assert (F : forall e, In e es <-> In e elements /\ In light (lights e)).
  { intro e. unfold es. rewrite filter_In, has_light. tauto. }
  clearbody es. destruct es as [|e0 es].
  - intros e I J. apply (proj2 (F e)). auto.
  - set (l := e0 :: es) in *. clearbody l.
    destruct (first_crossed collide (map stop_line l)) as [d|] eqn:E.
    + apply first_crossed_some in E. destruct E as (line & I & C). apply in_map_iff in I. destruct I as (e & E & I).
      apply F in I. exists e, line. tauto.
    + intros x (e & line & I & J & Z & C).
      rewrite (first_crossed_none collide _ line E) in C; [discriminate|]. apply in_map_iff. exists e. split; [exact Z|].
      apply F. auto.
Qed.

Lemma light_least {Line} (collide : Line -> option R) length elements light : 0 < length ->
  (exists e, In e elements /\ In light (lights e)) ->
  (forall x y, light_crossing collide elements light x -> light_crossing collide elements light y -> x = y) ->
  exists d, distance_to_light collide length elements light = Answers d /\ least (light_crossing collide elements light) d.
Proof.
  intros L (e & Ie & Il) U. assert (X := C161_light collide length elements light L).
  destruct (distance_to_light collide length elements light) as [|[d|]].
  - destruct (X e Ie Il).
  - exists (Some d). split; [reflexivity|]. split; [exact X|]. intros y Y. rewrite (U _ _ X Y). lra.
  - exists None. split; [reflexivity|exact X].
Qed.
Lemma over_lights_least {Line} (collide : Line -> option R) length elements l : 0 < length -> forall P best,
  (forall light, In light l -> exists e, In e elements /\ In light (lights e)) ->
  (forall light x y, In light l -> light_crossing collide elements light x -> light_crossing collide elements light y -> x = y) ->
  least P best ->
  exists d, over_lights collide length elements l best = Answers d
    /\ least (fun x => P x \/ exists light, In light l /\ light_crossing collide elements light x) d.
Proof.
  intro L. induction l as [|light l IH]; intros P best K U B; cbn [over_lights].
  - exists best. split; [reflexivity|]. revert B. apply least_equiv. intro x. split; [auto|]. intros [X|(? & [] & _)]. exact X.
  - destruct (light_least collide length elements light L) as (d & -> & D).
    + apply K. left. reflexivity.
    + intros x y. apply U. left. reflexivity.
    + destruct (IH _ _ (fun g I => K g (or_intror I)) (fun g x y I => U g x y (or_intror I)) (nearer_least _ _ _ _ B D))
        as (r & E & R). exists r. split; [exact E|]. revert R. apply least_equiv. intro x. split.
      * intros [[X|X]|(g & I & X)]; [auto|right; exists light; split; [left; reflexivity|exact X]|right; exists g; split; [right; exact I|exact X]].
      * intros [X|(g & [<-|I] & X)]; [auto|auto|right; exists g; auto].
Qed.
Lemma on_path_iff {Line} (on : Z -> list (Element Line)) route light :
  In light (lights_on_path on route) <-> light_on on route light.
Proof.
  unfold lights_on_path, light_on. rewrite in_flat_map. split.
  - intros (e & I & J). apply in_flat_map in I. destruct I as (l & I & K). exists l, e. auto.
  - intros (l & e & I & K & J). exists e. split; [|exact J]. apply in_flat_map. exists l. auto.
Qed.

(** The nearest stop line of the lights on the route (of those that ask to stop), if the spline crosses
    the stop lines of each light in one place at most *)
Theorem C161_lights {Line} (collide : Line -> option R) length elements on stops route : 0 < length ->
  in_map elements on ->
  (forall light x y, light_on on route light ->
     light_crossing collide elements light x -> light_crossing collide elements light y -> x = y) ->
  (exists d, distance_to_lights collide length elements on route = Answers d
     /\ least (fun x => exists light, light_on on route light /\ light_crossing collide elements light x) d)
  /\ (exists d, distance_to_active_lights collide length elements on stops route = Answers d
     /\ least (fun x => exists light, light_on on route light /\ stops light = true
                          /\ light_crossing collide elements light x) d).
Proof.
  intros L M U.
  assert (N : least (fun _ => False) None) by (intros x f; exact f).
  assert (K : forall light, light_on on route light -> exists e, In e elements /\ In light (lights e)).
  { intros light (l & e & I & J & H). exists e. split; [exact (M l e J)|exact H]. }
  split.
  - destruct (over_lights_least collide length elements (lights_on_path on route) L (fun _ => False) None) as (d & E & D); auto.
    + intros light I. apply K, on_path_iff, I.
    + intros light x y I. apply U, on_path_iff, I.
    + exists d. split; [exact E|]. revert D. apply least_equiv. intro x. split.
      * intros [[]|(g & I & X)]. exists g. split; [apply on_path_iff, I|exact X].
      * intros (g & I & X). right. exists g. split; [apply on_path_iff, I|exact X].
  - destruct (over_lights_least collide length elements (filter stops (lights_on_path on route)) L (fun _ => False) None) as (d & E & D); auto.
    + intros light I. apply filter_In in I. apply K, on_path_iff, I.
    + intros light x y I. apply filter_In in I. apply U, on_path_iff, I.
    + exists d. split; [exact E|]. revert D. apply least_equiv. intro x. split.
      * intros [[]|(g & I & X)]. apply filter_In in I. destruct I as (I & S). exists g. split; [apply on_path_iff, I|auto].
      * intros (g & I & S & X). right. exists g. split; [|exact X]. apply filter_In. split; [apply on_path_iff, I|exact S].
Qed.

(** The nearest stop line is missed if the light has two that are crossed: the first in the map counts. *)
Theorem C161_lights_refuted : exists (collide : R -> option R) elements on route d x light,
  in_map elements on /\ light_on on route light /\ light_crossing collide elements light x
  /\ distance_to_lights collide 100 elements on route = Answers (Some d) /\ x < d.
Proof.
  set (far := {| lights := [1%Z]; stop_line := Some 30 |}). set (near := {| lights := [1%Z]; stop_line := Some 10 |}).
  exists (fun x => Some x), [far; near], (fun _ => [near]), [5%Z], 30, 10, 1%Z.
  split; [intros l e [<-|[]]; right; left; reflexivity|].
  split; [exists 5%Z, near; cbn; auto|]. split; [exists near, 10; cbn; auto|]. split; [|lra].
  unfold distance_to_lights. cbn. unfold distance_to_light. destruct (Rle_dec 100 0); [lra|]. reflexivity.
Qed.
Example C161_example : exists (collide : R -> option R) elements on,
  in_map elements on /\ light_on on [5%Z] 1
  /\ (forall light x y, light_on on [5%Z] light ->
        light_crossing collide elements light x -> light_crossing collide elements light y -> x = y)
  /\ distance_to_active_lights collide 100 elements on (fun _ => true) [5%Z] = Answers (Some 30).
Proof.
  set (far := {| lights := [1%Z]; stop_line := Some 30 |}). set (other := {| lights := [2%Z]; stop_line := Some 10 |}).
  exists (fun x => Some x), [far; other], (fun _ => [far]).
  split; [intros l e [<-|[]]; left; reflexivity|]. split; [exists 5%Z, far; cbn; auto|]. split.
  - intros light x y (l & e & _ & [<-|[]] & [<-|[]]) (e1 & l1 & I1 & J1 & S1 & C1) (e2 & l2 & I2 & J2 & S2 & C2).
    destruct I1 as [<-|[<-|[]]]; [|destruct J1 as [J1|[]]; discriminate].
    destruct I2 as [<-|[<-|[]]]; [|destruct J2 as [J2|[]]; discriminate]. cbn in *. congruence.
  - cbn. unfold distance_to_active_lights. cbn. unfold distance_to_light. destruct (Rle_dec 100 0); [lra|]. reflexivity.
Qed.

(** *** C162: giving way *)
Lemma yield_fold forward backward others l d rights : reach forward backward l d -> forall best,
  best = None \/ best = Some d ->
  fold_left (fun best r =>
    if existsb (Z.eqb r) others then
      match forward l with
      | Some d => nearer best (Some d)
      | None => match backward l with Some d => nearer best (Some (- d)) | None => best end
      end
    else best) rights best
  = if existsb (fun r => existsb (Z.eqb r) others) rights then Some d else best.
Proof.
  intro R. induction rights as [|r rights IH]; intros best B; cbn [fold_left existsb]; [reflexivity|].
  destruct (existsb (Z.eqb r) others) eqn:E; cbn [orb].
  - assert (X : (match forward l with
      | Some d => nearer best (Some d)
      | None => match backward l with Some d => nearer best (Some (- d)) | None => best end
      end) = Some d).
    { assert (Y : nearer best (Some d) = Some d).
      { destruct B as [-> | ->]; cbn; [reflexivity|]. destruct (Rlt_dec d d); reflexivity. }
      destruct R as [-> |(-> & b & -> & ->)]; exact Y. }
    rewrite X, IH by (right; reflexivity). destruct (existsb _ rights); reflexivity.
  - apply IH, B.
Qed.
Lemma yield_fold_none forward backward others l rights : forward l = None -> backward l = None ->
  yield_on forward backward others l rights = None.
Proof.
  intros F B. unfold yield_on. rewrite F, B. generalize (@None R). induction rights as [|r rights IH]; intro o; cbn; [reflexivity|].
  destruct (existsb (Z.eqb r) others); apply IH.
Qed.
Lemma waits_iff regulations others l :
  existsb (fun r => existsb (Z.eqb r) others) (right_of_way_lanelets regulations l) = true <-> must_wait regulations others l.
Proof.
  rewrite existsb_exists. unfold right_of_way_lanelets, must_wait. split.
  - intros (r & I & E). apply filter_In in I. destruct I as (I & N). apply in_concat in I. destruct I as (rights & J & I).
    apply existsb_exists in E. destruct E as (o & O & E). apply Z.eqb_eq in E. subst o.
    exists rights, r. repeat split; auto. intros ->. rewrite Z.eqb_refl in N. discriminate.
  - intros (rights & r & J & I & N & O). exists r. split.
    + apply filter_In. split; [apply in_concat; exists rights; auto|]. apply negb_true_iff, Z.eqb_neq, N.
    + apply existsb_exists. exists r. split; [exact O|apply Z.eqb_refl].
Qed.
Lemma yield_iff forward backward regulations others l d :
  yield_on forward backward others l (right_of_way_lanelets regulations l) = Some d <->
  must_wait regulations others l /\ reach forward backward l d.
Proof.
  assert (Y : (exists x, reach forward backward l x) \/ (forward l = None /\ backward l = None)).
  { unfold reach. destruct (forward l) as [x|]; [left; exists x; auto|]. destruct (backward l) as [b|]; [left; exists (- b); right; eauto|auto]. }
  destruct Y as [(x & X)|(F & B)].
  - unfold yield_on. rewrite (yield_fold forward backward others l x _ X None) by auto. rewrite <- waits_iff.
    assert (U : reach forward backward l d <-> x = d).
    { unfold reach in *. split; [|intros <-; exact X].
      intros [E|(E & b & Eb & ->)]; destruct X as [E'|(E' & b' & Eb' & ->)]; congruence. }
    rewrite U. destruct (existsb _ (right_of_way_lanelets regulations l)); split; try discriminate.
    + intro E. injection E as ->. auto.
    + intros (_ & ->). reflexivity.
    + intros (E & _). discriminate.
  - rewrite yield_fold_none by assumption. split; [discriminate|]. unfold reach.
    intros (_ & [E|(_ & b & E & _)]); congruence.
Qed.

(** The first lanelet of the way where somebody has right of way and whose start can be reached: how far
    ahead it is, or how far behind (negative). *)
Theorem C162_yield forward backward regulations others following d :
  distance_to_yield_stop forward backward regulations others following = Some d <->
  exists before l after, following = before ++ l :: after
    /\ must_wait regulations others l /\ reach forward backward l d
    /\ forall x, In x before -> ~ (must_wait regulations others x /\ exists y, reach forward backward x y).
Proof.
  induction following as [|l following IH]; cbn [distance_to_yield_stop].
  - split; [discriminate|]. intros (b & l & a & E & _). destruct b; discriminate E.
  - destruct (yield_on forward backward others l (right_of_way_lanelets regulations l)) as [e|] eqn:Y.
    + apply yield_iff in Y. destruct Y as (W & R). split.
      * intro E. injection E as <-. exists [], l, following. split; [reflexivity|]. split; [exact W|]. split; [exact R|]. intros x [].
      * intros (b & x & a & E & W' & R' & F). destruct b as [|y b]; cbn in E; injection E as <- E.
        -- assert (K : yield_on forward backward others l (right_of_way_lanelets regulations l) = Some d) by (apply yield_iff; auto).
           assert (K' : yield_on forward backward others l (right_of_way_lanelets regulations l) = Some e) by (apply yield_iff; auto).
           congruence.
        -- exfalso. apply (F l); [left; reflexivity|]. eauto.
    + rewrite IH. split.
      * intros (b & x & a & -> & W & R & F). exists (l :: b), x, a. repeat split; auto.
        intros y [<-|I]; [|auto]. intros (W' & z & Z). assert (K := conj W' Z). apply yield_iff in K. congruence.
      * intros (b & x & a & E & W & R & F). destruct b as [|y b]; cbn in E; injection E as <- E.
        -- exfalso. assert (K := conj W R). apply yield_iff in K. congruence.
        -- exists b, x, a. repeat split; auto. intros z I. apply F. right. exact I.
Qed.
Theorem C162_free forward backward regulations others following :
  distance_to_yield_stop forward backward regulations others following = None <->
  forall l, In l following -> ~ (must_wait regulations others l /\ exists d, reach forward backward l d).
Proof.
  induction following as [|l following IH]; cbn [distance_to_yield_stop].
  - split; [intros _ ? []|reflexivity].
  - destruct (yield_on forward backward others l (right_of_way_lanelets regulations l)) as [e|] eqn:Y.
    + split; [discriminate|]. intro H. apply yield_iff in Y. exfalso. apply (H l); [left; reflexivity|].
      destruct Y; eauto.
    + rewrite IH. split.
      * intros H x [<-|I]; [|auto]. intros (W & d & R). assert (K := conj W R). apply yield_iff in K. congruence.
      * intros H x I. apply H. right. exact I.
Qed.
Example C162_example : distance_to_yield_stop (fun l => if (l =? 3)%Z then Some 12 else None) (fun _ => None)
  (fun l => if (l =? 3)%Z then [[3; 7]%Z] else []) [7%Z] [2; 3]%Z = Some 12.
Proof. reflexivity. Qed.

(** *** C163: across lanes *)
(** Boxes that are centred on their entities: the room between them, counted positive to the left and
    negative to the right *)
Theorem C163_room x from to : centred from -> centred to ->
  (0 < x -> box_lateral (Some x) from to = Some (room_left x from to))
  /\ (x < 0 -> box_lateral (Some x) from to = Some (- room_right x from to)).
Proof.
  intros (A & A') (B & B'). unfold box_lateral, room_left, room_right. rewrite A, B.
  split; intro X; destruct (Rlt_dec 0 x); try lra; [|destruct (Rlt_dec x 0); [|lra]];
    rewrite !Rabs_Ropp, !Rabs_pos_eq by assumption; f_equal; ring.
Qed.
(** Otherwise the wrong sides of the boxes are taken. *)
Theorem C163_wrong_sides x from to : contains from -> contains to ->
  (0 < x -> box_lateral (Some x) from to = Some (x + low from - high to))
  /\ (x < 0 -> box_lateral (Some x) from to = Some (x + high from - low to)).
Proof.
  intros (A & A') (B & B'). unfold box_lateral.
  split; intro X; destruct (Rlt_dec 0 x); try lra; [|destruct (Rlt_dec x 0); [|lra]];
    rewrite (Rabs_left1 (low _)), (Rabs_pos_eq (high _)) by assumption; f_equal; ring.
Qed.
Theorem C163_room_refuted : exists x from to d, contains from /\ contains to
  /\ 0 < x /\ 0 < room_left x from to /\ box_lateral (Some x) from to = Some d /\ d < 0.
Proof.
  exists 2, {| high := 1 / 2; low := - (3 / 2) |}, {| high := 1; low := - 1 |}, (- (1 / 2)).
  split; [cbn; unfold contains; cbn; lra|]. split; [unfold contains; cbn; lra|].
  split; [lra|]. split; [unfold room_left; cbn; lra|]. split; [|lra].
  unfold box_lateral. destruct (Rlt_dec 0 2); [|lra]. cbn [high low].
  rewrite Rabs_left1 by lra. rewrite Rabs_pos_eq by lra. f_equal. field.
Qed.

Lemma changes_sum next offset (side : Z -> R) route : forall sum d,
  (forall a b x, offset a b = Some x -> x = side b - side a) ->
  (forall before a b after, route = before ++ a :: b :: after -> In b (next a) -> side b = side a) ->
  lateral_changes next offset route sum = Some d ->
  forall first, hd_error route = Some first -> d = sum + (side (last route first) - side first).
Proof.
  induction route as [|a route IH]; intros sum d O N E first F; [discriminate F|].
  injection F as <-. destruct route as [|b route].
  - cbn in E. injection E as <-. cbn. lra.
  - assert (N' : forall before x y after, b :: route = before ++ x :: y :: after -> In y (next x) -> side y = side x).
    { intros before x y after Q. apply (N (a :: before) x y after). cbn. rewrite Q. reflexivity. }
    assert (Lst : last (a :: b :: route) a = last (b :: route) b).
    { change (last (a :: b :: route) a) with (last (b :: route) a). clear. revert b. induction route as [|c r IH]; intro b; [reflexivity|].
      change (last (b :: c :: r) a) with (last (c :: r) a). change (last (b :: c :: r) b) with (last (c :: r) b).
      rewrite (IH c). clear. revert c. induction r as [|e r IH]; intro c; [reflexivity|].
      change (last (c :: e :: r) c) with (last (e :: r) c). change (last (c :: e :: r) b) with (last (e :: r) b).
      clear. revert e. induction r as [|f r IH]; intro e; [reflexivity|]. apply (IH f). }
    rewrite Lst. change (lateral_changes next offset (a :: b :: route) sum) with
      (if existsb (Z.eqb b) (next a) then lateral_changes next offset (b :: route) sum
      else match offset a b with
           | Some x => lateral_changes next offset (b :: route) (sum + x)
           | None => match offset b a with
                     | Some x => lateral_changes next offset (b :: route) (sum - x)
                     | None => None
                     end
           end) in E.
    destruct (existsb (Z.eqb b) (next a)) eqn:X.
    + rewrite (IH _ _ O N' E b eq_refl). apply existsb_exists in X. destruct X as (y & I & Y). apply Z.eqb_eq in Y. subst y.
      rewrite (N [] a b route eq_refl I). ring.
    + destruct (offset a b) as [x|] eqn:Oab.
      * rewrite (IH _ _ O N' E b eq_refl). rewrite (O _ _ _ Oab). ring.
      * destruct (offset b a) as [x|] eqn:Oba; [|discriminate]. rewrite (IH _ _ O N' E b eq_refl). rewrite (O _ _ _ Oba). ring.
Qed.

(** If the lanelets have places side by side, and the offsets that are found are those between these
    places, the lateral distance is the difference of the places plus that of the offsets. *)
Theorem C163_lateral next offset (side : Z -> R) route first d from_offset to_offset :
  (forall a b x, offset a b = Some x -> x = side b - side a) ->
  (forall before a b after, route = before ++ a :: b :: after -> In b (next a) -> side b = side a) ->
  hd_error route = Some first ->
  lateral_distance next offset true route from_offset to_offset = Some d ->
  d = (side (last route first) + to_offset) - (side first + from_offset).
Proof.
  intros O N F E. unfold lateral_distance in E. destruct route as [|a r]; [discriminate F|]. cbn [negb] in E.
  destruct (lateral_changes next offset (a :: r) 0) as [x|] eqn:C; [|discriminate]. injection E as <-.
  rewrite (changes_sum next offset side _ _ _ O N C first F). ring.
Qed.
(** It is there exactly if there is a route and each change of lanes on it can be measured one way or the other. *)
Theorem C163_defined next offset allow route from_offset to_offset :
  lateral_distance next offset allow route from_offset to_offset <> None <->
  route <> [] /\ (allow = true -> forall before a b after, route = before ++ a :: b :: after ->
    In b (next a) \/ offset a b <> None \/ offset b a <> None).
Proof.
  assert (K : forall route sum, lateral_changes next offset route sum <> None <->
    forall before a b after, route = before ++ a :: b :: after -> In b (next a) \/ offset a b <> None \/ offset b a <> None).
  { clear. induction route as [|a route IH]; intro sum.
    - cbn. split; [|discriminate]. intros _ before a b after E. destruct before; discriminate E.
    - destruct route as [|b route].
      + cbn. split; [|discriminate]. intros _ before x y after E. destruct before as [|? [|? ?]]; discriminate E.
      + set (P := In b (next a) \/ offset a b <> None \/ offset b a <> None).
        assert (D : (forall before x y after, a :: b :: route = before ++ x :: y :: after ->
                       In y (next x) \/ offset x y <> None \/ offset y x <> None) <->
                    (P /\ forall before x y after, b :: route = before ++ x :: y :: after ->
                       In y (next x) \/ offset x y <> None \/ offset y x <> None)).
        { split.
          - intro H. split; [apply (H [] a b route eq_refl)|]. intros before x y after E. apply (H (a :: before) x y after). cbn. rewrite E. reflexivity.
          - intros (H & H') before x y after E. destruct before as [|z before]; cbn in E.
            + injection E as <- <- E. exact H.
            + injection E as <- E. apply (H' before x y after E). }
        rewrite D. unfold P. clear D P.
        change (lateral_changes next offset (a :: b :: route) sum) with
          (if existsb (Z.eqb b) (next a) then lateral_changes next offset (b :: route) sum
          else match offset a b with
               | Some x => lateral_changes next offset (b :: route) (sum + x)
               | None => match offset b a with
                         | Some x => lateral_changes next offset (b :: route) (sum - x)
                         | None => None
                         end
               end).
        destruct (existsb (Z.eqb b) (next a)) eqn:X.
        * apply existsb_exists in X. destruct X as (y & I & Y). apply Z.eqb_eq in Y. subst y. rewrite (IH sum). tauto.
        * assert (NI : ~ In b (next a)).
          { intro I. assert (existsb (Z.eqb b) (next a) = true) by (apply existsb_exists; exists b; split; [exact I|apply Z.eqb_refl]). congruence. }
          destruct (offset a b) as [x|] eqn:Oab.
          -- rewrite (IH (sum + x)). split; [intro H; split; [right; left; discriminate|exact H]|tauto].
          -- destruct (offset b a) as [x|] eqn:Oba.
             ++ rewrite (IH (sum - x)). split; [intro H; split; [right; right; discriminate|exact H]|tauto].
             ++ split; [intro H; contradiction|]. intros ([H|[H|H]] & _); contradiction. }
  unfold lateral_distance. destruct route as [|a r].
  - split; [intro H; contradiction|]. intros (H & _). contradiction.
  - destruct allow; cbn [negb].
    + specialize (K (a :: r) 0). destruct (lateral_changes next offset (a :: r) 0).
      * split; [|discriminate]. intros _. split; [discriminate|]. intros _. apply K. discriminate.
      * split; [intro H; contradiction|]. intros (_ & H). exfalso. apply (proj2 K); [exact (H eq_refl)|reflexivity].
    + split; [|discriminate]. intros _. split; discriminate.
Qed.
Example C163_example :
  lateral_distance (fun _ => []) (fun a b => if (a <? b)%Z then Some 3 else None) true [1; 2]%Z 0 1 = Some (1 - 0 + (0 + 3)).
Proof. reflexivity. Qed.

(** *** C164: the distance of a box from the spline *)
Lemma bisect_attained fuel f : forall a b r, a <= b -> bisect fuel f a b (f a) (f b) = Some r ->
  exists s, a <= s <= b /\ r = f s.
Proof.
  induction fuel as [|n IH]; intros a b r L E; [discriminate|]. cbn [bisect] in E.
  destruct (Rlt_dec accuracy (Rabs (a - b))).
  - destruct (Rlt_dec (f b) (f a)).
    + destruct (IH (a + (b - a) / 2) b r) as (s & S & R); [lra|exact E|]. exists s. split; [lra|exact R].
    + destruct (IH a (a + (b - a) / 2) r) as (s & S & R); [lra|exact E|]. exists s. split; [lra|exact R].
  - injection E as <-. unfold Rmin. destruct (Rle_dec (f a) (f b)); [exists a|exists b]; split; auto; lra.
Qed.
Lemma bisect_ends n : forall f a b fa fb, a <= b -> b - a <= accuracy * 2 ^ n -> bisect (S n) f a b fa fb <> None.
Proof.
  induction n as [|n IH]; intros f a b fa fb L W.
  - cbn [bisect]. destruct (Rlt_dec accuracy (Rabs (a - b))) as [X|X]; [|discriminate].
    rewrite Rabs_left1 in X by lra. cbn in W. lra.
  - change (bisect (S (S n)) f a b fa fb) with
      (if Rlt_dec accuracy (Rabs (a - b)) then
        let m := a + (b - a) / 2 in
        if Rlt_dec fb fa then bisect (S n) f m b (f m) fb else bisect (S n) f a m fa (f m)
      else Some (Rmin fa fb)).
    destruct (Rlt_dec accuracy (Rabs (a - b))); [|discriminate]. cbn zeta. cbn [pow] in W.
    destruct (Rlt_dec fb fa); apply IH; lra.
Qed.
Lemma squared_nonneg p q : 0 <= squared p q.
Proof. unfold squared. apply Rplus_le_le_0_compat; apply Rle_0_sqr. Qed.
Lemma diagonal_nonneg p q : 0 <= sqrt (squared p q).
Proof. apply sqrt_pos. Qed.

Lemma min4 a b c d : let m := Rmin (Rmin (Rmin a b) c) d in
  (m = a \/ m = b \/ m = c \/ m = d) /\ m <= a /\ m <= b /\ m <= c /\ m <= d.
Proof.
  cbn zeta. pose proof (Rmin_l (Rmin (Rmin a b) c) d). pose proof (Rmin_r (Rmin (Rmin a b) c) d).
  pose proof (Rmin_l (Rmin a b) c). pose proof (Rmin_r (Rmin a b) c). pose proof (Rmin_l a b). pose proof (Rmin_r a b).
  split; [|lra].
  destruct (Rmin_case_strong (Rmin (Rmin a b) c) d (fun m => m = Rmin (Rmin a b) c \/ m = d)); auto.
  - destruct (Rmin_case_strong (Rmin a b) c (fun m => m = Rmin a b \/ m = c)); auto.
    + destruct (Rmin_case_strong a b (fun m => m = a \/ m = b)); auto; left + (right; left); congruence.
    + right. right. left. congruence.
Qed.

Lemma spline_parts fuel curve reference p0 p1 p2 p3 d : distance_to_spline fuel curve reference p0 p1 p2 p3 = Some d ->
  exists d0 d1 d2 d3, corner_distance fuel curve reference (distance p0 p2) p0 = Some d0
    /\ corner_distance fuel curve reference (distance p0 p2) p1 = Some d1
    /\ corner_distance fuel curve reference (distance p0 p2) p2 = Some d2
    /\ corner_distance fuel curve reference (distance p0 p2) p3 = Some d3
    /\ d = sqrt (Rmin (Rmin (Rmin d0 d1) d2) d3).
Proof.
  unfold distance_to_spline. fold (distance p0 p2). 
  destruct (corner_distance _ _ _ _ p0) as [d0|]; [|discriminate].
  destruct (corner_distance _ _ _ _ p1) as [d1|]; [|discriminate].
  destruct (corner_distance _ _ _ _ p2) as [d2|]; [|discriminate].
  destruct (corner_distance _ _ _ _ p3) as [d3|]; [|discriminate].
  intro E. injection E as <-. exists d0, d1, d2, d3. auto.
Qed.
Lemma corner_attained fuel curve reference p0 p2 p r : corner_distance fuel curve reference (distance p0 p2) p = Some r ->
  exists s, window reference p0 p2 s /\ r = squared p (curve s).
Proof.
  intro E. unfold corner_distance in E. apply (bisect_attained fuel (fun s => squared p (curve s))) in E.
  - exact E.
  - pose proof (diagonal_nonneg p0 p2). unfold distance. lra.
Qed.

(** The answer is the distance of a corner from a point of the spline in the window; so it is never less
    than the distance of the box from the spline. *)
Theorem C164_attained fuel curve reference p0 p1 p2 p3 d : distance_to_spline fuel curve reference p0 p1 p2 p3 = Some d ->
  exists p s, In p [p0; p1; p2; p3] /\ window reference p0 p2 s /\ d = distance p (curve s).
Proof.
  intro E. apply spline_parts in E. destruct E as (d0 & d1 & d2 & d3 & E0 & E1 & E2 & E3 & ->).
  apply corner_attained in E0, E1, E2, E3. unfold distance.
  destruct (min4 d0 d1 d2 d3) as (M & _). cbn zeta in M.
  destruct E0 as (s0 & W0 & R0), E1 as (s1 & W1 & R1), E2 as (s2 & W2 & R2), E3 as (s3 & W3 & R3).
  destruct M as [-> |[-> |[-> | ->]]]; [exists p0, s0|exists p1, s1|exists p2, s2|exists p3, s3]; cbn; subst; auto 10.
Qed.

(** The search ends. *)
Theorem C164_ends curve reference p0 p1 p2 p3 : exists fuel, distance_to_spline fuel curve reference p0 p1 p2 p3 <> None.
Proof.
  set (w := distance p0 p2). assert (W : 0 <= w) by apply diagonal_nonneg.
  destruct (Pow_x_infinity 2) with (b := w / accuracy) as (n & N).
  { rewrite Rabs_pos_eq; lra. }
  specialize (N n (le_n n)). rewrite Rabs_pos_eq in N by (apply pow_le; lra).
  assert (X : w <= accuracy * 2 ^ n).
  { apply Rge_le in N. apply Rmult_le_compat_l with (r := accuracy) in N; [|unfold accuracy; lra].
    unfold accuracy in *. replace (5 / 100 * (w / (5 / 100))) with w in N by field. exact N. }
  exists (S n). unfold distance_to_spline. fold (distance p0 p2). fold w.
  assert (C : forall p, corner_distance (S n) curve reference w p <> None).
  { intro p. unfold corner_distance. apply bisect_ends; lra. }
  pose proof (C p0). pose proof (C p1). pose proof (C p2). pose proof (C p3).
  destruct (corner_distance (S n) curve reference w p0), (corner_distance (S n) curve reference w p1),
    (corner_distance (S n) curve reference w p2), (corner_distance (S n) curve reference w p3); try contradiction. discriminate.
Qed.

Lemma near_end a b z s : a <= s <= b -> b - a <= 5 / 100 -> (a - z) * (a - z) <= (b - z) * (b - z) ->
  (a - z) * (a - z) <= (s - z) * (s - z) + 5 / 100 / 2 * (5 / 100 / 2).
Proof.
  intros S W F. destruct (Rle_dec z a) as [Z|Z].
  - assert ((a - z) * (a - z) <= (s - z) * (s - z)) by (apply Rmult_le_compat; lra). lra.
  - destruct (Rle_dec b z) as [Y|Y].
    + assert (z - a <= z - b).
      { apply Rsqr_incr_0_var; [unfold Rsqr|lra]. lra. }
      assert (s = a) as -> by lra. lra.
    + assert (z - a <= b - z).
      { apply Rsqr_incr_0_var; [unfold Rsqr|lra]. lra. }
      assert ((z - a) * (z - a) <= 5 / 100 / 2 * (5 / 100 / 2)) by (apply Rmult_le_compat; lra).
      assert (0 <= (s - z) * (s - z)) by apply Rle_0_sqr. lra.
Qed.
Lemma bisect_parabola fuel h z : forall a b r, a <= b ->
  bisect fuel (fun s => h + (s - z) * (s - z)) a b (h + (a - z) * (a - z)) (h + (b - z) * (b - z)) = Some r ->
  forall s, a <= s <= b -> r <= h + (s - z) * (s - z) + (accuracy / 2) * (accuracy / 2).
Proof.
  induction fuel as [|n IH]; intros a b r L E s S; [discriminate|]. cbn [bisect] in E.
  destruct (Rlt_dec accuracy (Rabs (a - b))) as [X|X].
  - set (m := a + (b - a) / 2) in *.
    destruct (Rlt_dec (h + (b - z) * (b - z)) (h + (a - z) * (a - z))) as [F|F].
    + assert (Z : m <= z) by (unfold m in *; clear IH; nra).
      destruct (Rle_dec m s) as [Y|Y].
      * apply (IH m b r); [unfold m; lra|exact E|lra].
      * assert (Q := IH m b r ltac:(unfold m; lra) E m ltac:(unfold m; lra)).
        assert ((m - z) * (m - z) <= (s - z) * (s - z)) by nra. lra.
    + assert (Z : z <= m).
      { destruct (Req_dec a b) as [-> |N]; [exfalso; unfold accuracy in X; rewrite Rminus_diag_eq, Rabs_R0 in X by reflexivity; lra|].
        unfold m. assert ((b - a) * (a + b - 2 * z) >= 0) by nra. assert (a + b - 2 * z >= 0) by nra. lra. }
      destruct (Rle_dec s m) as [Y|Y].
      * apply (IH a m r); [unfold m; lra|exact E|lra].
      * assert (Q := IH a m r ltac:(unfold m; lra) E m ltac:(unfold m; lra)).
        assert ((m - z) * (m - z) <= (s - z) * (s - z)) by nra. lra.
  - injection E as <-. rewrite Rabs_left1 in X by lra. unfold accuracy in *.
    unfold Rmin. destruct (Rle_dec (h + (a - z) * (a - z)) (h + (b - z) * (b - z))) as [F|F].
    + assert (N := near_end a b z s S ltac:(lra) ltac:(lra)). lra.
    + assert (N := near_end (- b) (- a) (- z) (- s) ltac:(lra) ltac:(lra) ltac:(nra)).
      replace ((- b - - z) * (- b - - z)) with ((b - z) * (b - z)) in N by ring.
      replace ((- s - - z) * (- s - - z)) with ((s - z) * (s - z)) in N by ring. lra.
Qed.
Lemma bisect_ext fuel f g : (forall s, f s = g s) -> forall a b x y, bisect fuel f a b x y = bisect fuel g a b x y.
Proof.
  intro E. induction fuel as [|n IH]; intros a b x y; [reflexivity|]. cbn [bisect].
  destruct (Rlt_dec accuracy (Rabs (a - b))); [|reflexivity]. cbn zeta. rewrite E. destruct (Rlt_dec y x); apply IH.
Qed.

(** Along a straight spline no corner is nearer to the window than the answer, by more than 2.5 cm. *)
Theorem C164_straight fuel curve reference p0 p1 p2 p3 d : straight curve ->
  distance_to_spline fuel curve reference p0 p1 p2 p3 = Some d ->
  forall p s, In p [p0; p1; p2; p3] -> window reference p0 p2 s -> d <= distance p (curve s) + 25 / 1000.
Proof.
  intros (o & u & U & C) E p s I W.
  assert (K : forall q r, corner_distance fuel curve reference (distance p0 p2) q = Some r ->
    r <= squared q (curve s) + (accuracy / 2) * (accuracy / 2)).
  { intros q r R. unfold corner_distance in R.
    set (z := (fst q - fst o) * fst u + (snd q - snd o) * snd u).
    set (h := ((fst q - fst o) * snd u - (snd q - snd o) * fst u) * ((fst q - fst o) * snd u - (snd q - snd o) * fst u)).
    assert (F : forall t, squared q (curve t) = h + (t - z) * (t - z)).
    { intro t. rewrite C. unfold squared, h, z. cbn [fst snd].
      set (X := fst q - fst o). set (Y := snd q - snd o).
      replace (fst q - (fst o + t * fst u)) with (X - t * fst u) by (unfold X; ring).
      replace (snd q - (snd o + t * snd u)) with (Y - t * snd u) by (unfold Y; ring).
      transitivity ((X * X + Y * Y) * (fst u * fst u + snd u * snd u) - 2 * t * (X * fst u + Y * snd u) + t * t * (fst u * fst u + snd u * snd u)).
      - rewrite U. replace ((X - t * fst u) * (X - t * fst u) + (Y - t * snd u) * (Y - t * snd u)) with
          (X * X + Y * Y - 2 * t * (X * fst u + Y * snd u) + t * t * (fst u * fst u + snd u * snd u)) by ring. rewrite U. ring.
      - transitivity ((X * snd u - Y * fst u) * (X * snd u - Y * fst u) + (X * fst u + Y * snd u) * (X * fst u + Y * snd u)
          - 2 * t * (X * fst u + Y * snd u) + t * t * (fst u * fst u + snd u * snd u)); [ring|]. rewrite U. ring. }
    rewrite (bisect_ext _ _ (fun t => h + (t - z) * (t - z)) F) in R. rewrite (F (reference - distance p0 p2 / 2)), (F (reference + distance p0 p2 / 2)) in R. rewrite F.
    apply (bisect_parabola fuel h z _ _ _) with (s := s) in R; [exact R| |exact W].
    pose proof (diagonal_nonneg p0 p2). unfold distance. lra. }
  apply spline_parts in E. destruct E as (d0 & d1 & d2 & d3 & E0 & E1 & E2 & E3 & ->).
  apply K in E0 as K0; apply K in E1 as K1; apply K in E2 as K2; apply K in E3 as K3.
  destruct (min4 d0 d1 d2 d3) as (_ & M0 & M1 & M2 & M3). cbn zeta in *.
  set (m := Rmin (Rmin (Rmin d0 d1) d2) d3) in *.
  assert (B : m <= squared p (curve s) + (accuracy / 2) * (accuracy / 2)).
  { cbn in I. destruct I as [<-|[<-|[<-|[<-|[]]]]]; lra. }
  unfold distance. pose proof (squared_nonneg p (curve s)) as Q. set (x := squared p (curve s)) in *.
  pose proof (sqrt_pos x). rewrite <- (sqrt_square (sqrt x + 25 / 1000)) by lra. apply sqrt_le_1_alt.
  pose proof (sqrt_sqrt x Q). unfold accuracy in B. nra.
Qed.

(** Along a curve it can be: the ends of the window are compared, not what is between. *)
Definition bend (s : R) : Point := (95 / 100 - Rabs (s + 45 / 100), 0).
Lemma bend_length : by_length bend.
Proof.
  intros s t. unfold distance, squared, bend. cbn [fst snd].
  replace (_ + _) with (Rsqr (Rabs (t + 45 / 100) - Rabs (s + 45 / 100))).
  2:{ unfold Rsqr. ring. }
  rewrite sqrt_Rsqr_abs. replace (s - t) with ((s + 45 / 100) - (t + 45 / 100)) by ring.
  rewrite (Rabs_minus_sym (s + 45 / 100)). apply Rabs_triang_inv2.
Qed.
Lemma bisect_keeps_start f : forall fuel b fb r, (forall s, -1 <= s <= 0 -> 16 / 100 <= f s) -> -1 <= b <= 1 -> 16 / 100 <= fb ->
  bisect fuel f (-1) b (16 / 100) fb = Some r -> r = 16 / 100.
Proof.
  intro fuel. induction fuel as [|n IH]; intros b fb r F B L E; [discriminate|]. cbn [bisect] in E.
  destruct (Rlt_dec accuracy (Rabs (-1 - b))).
  - destruct (Rlt_dec fb (16 / 100)); [lra|]. apply IH in E; auto; [lra|apply F; lra].
  - injection E as <-. apply Rmin_left. exact L.
Qed.
Theorem C164_curved_refuted : exists curve reference p0 p1 p2 p3 fuel d s, by_length curve
  /\ distance_to_spline fuel curve reference p0 p1 p2 p3 = Some d
  /\ window reference p0 p2 s /\ distance p0 (curve s) = 0 /\ d = 4 / 10.
Proof.
  destruct (C164_ends bend 0 (0, 0) (0, 0) (2, 0) (2, 0)) as (fuel & N).
  destruct (distance_to_spline fuel bend 0 (0, 0) (0, 0) (2, 0) (2, 0)) as [d|] eqn:E; [|contradiction].
  exists bend, 0, (0, 0), (0, 0), (2, 0), (2, 0), fuel, d, (5 / 10).
  assert (D : distance (0, 0) (2, 0) = 2).
  { unfold distance, squared. cbn [fst snd]. replace (_ + _) with (2 * 2) by ring. apply sqrt_square. lra. }
  split; [apply bend_length|]. split; [exact E|]. split; [unfold window; rewrite D; lra|].
  split.
  { unfold distance, squared, bend. cbn [fst snd]. rewrite Rabs_pos_eq by lra.
    replace (_ + _) with 0 by field. apply sqrt_0. }
  apply spline_parts in E. rewrite D in E. destruct E as (d0 & d1 & d2 & d3 & E0 & E1 & E2 & E3 & ->).
  assert (F : forall s, squared (0, 0) (bend s) = (95 / 100 - Rabs (s + 45 / 100)) * (95 / 100 - Rabs (s + 45 / 100))).
  { intro s. unfold squared, bend. cbn [fst snd]. ring. }
  assert (Z : forall r, corner_distance fuel bend 0 2 (0, 0) = Some r -> r = 16 / 100).
  { intros r R. unfold corner_distance in R. replace (0 - 2 / 2) with (-1) in R by field. replace (0 + 2 / 2) with 1 in R by field.
    rewrite !F in R. rewrite (Rabs_left1 (-1 + 45 / 100)), (Rabs_pos_eq (1 + 45 / 100)) in R by lra.
    replace ((95 / 100 - - (-1 + 45 / 100)) * (95 / 100 - - (-1 + 45 / 100))) with (16 / 100) in R by field.
    apply bisect_keeps_start in R; auto; [|lra|lra]. intros s S. rewrite F.
    destruct (Rle_dec 0 (s + 45 / 100)); [rewrite Rabs_pos_eq by lra|rewrite Rabs_left1 by lra]; nra. }
  apply Z in E0. apply Z in E1.
  assert (Y : forall r, corner_distance fuel bend 0 2 (2, 0) = Some r -> 1 <= r).
  { intros r R. rewrite <- D in R. apply corner_attained in R. destruct R as (s & _ & ->).
    unfold squared, bend. cbn [fst snd]. pose proof (Rabs_pos (s + 45 / 100)). nra. }
  apply Y in E2. apply Y in E3. subst d0 d1.
  rewrite (Rmin_left (16 / 100) (16 / 100)) by lra. rewrite (Rmin_left _ d2) by lra. rewrite (Rmin_left _ d3) by lra.
  replace (16 / 100) with ((4 / 10) * (4 / 10)) by field. apply sqrt_square. lra.
Qed.
Example C164_example : straight (fun s => (s, 0)).
Proof. exists (0, 0), (1, 0). cbn [fst snd]. split; [ring|]. intro s. f_equal; ring. Qed.

(** *** C165: entities on the way *)
Lemma box_room x from to gap : contains from -> contains to ->
  (box_longitudinal (Some x) from to = Some gap <-> counted_room x from to gap).
Proof.
  intros (F & F') (B & B'). unfold box_longitudinal, counted_room.
  rewrite (Rabs_pos_eq (high from)), (Rabs_pos_eq (high to)), (Rabs_left1 (low to)), (Rabs_left1 (low from)) by assumption.
  destruct (Rlt_dec 0 x); [|destruct (Rlt_dec x 0)]; split.
  - intro E. injection E as <-. left. lra.
  - intros [(_ & ->)|[(X & _)|(X & _)]]; [f_equal; ring|lra|lra].
  - intro E. injection E as <-. right. right. lra.
  - intros [(X & _)|[(X & _)|(_ & ->)]]; [lra|lra|f_equal; ring].
  - intro E. injection E as <-. right. left. lra.
  - intros [(X & _)|[(X & ->)|(X & _)]]; [lra|f_equal; lra|lra].
Qed.

(** The answer is the counted room plus half the own length, for a target that is on the way; otherwise
    there is none. *)
Theorem C165_ahead lowest highest from length width threshold t d : contains from -> contains (body t) ->
  (spline_distance lowest highest from length width threshold t = Some d <->
   exists gap, ahead lowest highest from length width threshold t gap /\ d = gap + length / 2).
Proof.
  intros CF CB. unfold spline_distance, ahead. split.
  - destruct (Rle_dec (lowest - 1) (altitude t)); [|discriminate].
    destruct (Rle_dec (altitude t) (highest + 1)); [|discriminate].
    destruct (routable t); [|discriminate].
    destruct (box_longitudinal (along t) from (body t)) as [b|] eqn:BL; [|discriminate].
    assert (G : exists x, along t = Some x /\ counted_room x from (body t) b).
    { destruct (along t) as [x|]; [|discriminate]. exists x. split; [reflexivity|]. apply box_room; assumption. }
    destruct (Rlt_dec b 0); [discriminate|]. cbn zeta.
    intro E. exists b. destruct (Rlt_dec threshold 0).
    + destruct (Rle_dec (aside t) (width / 2)).
      * injection E as <-. repeat split; auto; lra.
      * destruct (crossed t b (b + length / 2 + diagonal t)) eqn:C; [|discriminate]. injection E as <-. repeat split; auto; lra.
    + destruct (Rle_dec (aside t) threshold).
      * injection E as <-. repeat split; auto; lra.
      * destruct (crossed t b (b + length / 2 + diagonal t)) eqn:C; [|discriminate]. injection E as <-. repeat split; auto; lra.
  - intros (gap & ((A & A') & R & (x & X & B) & G & S) & ->).
    destruct (Rle_dec (lowest - 1) (altitude t)); [|contradiction]. destruct (Rle_dec (altitude t) (highest + 1)); [|contradiction].
    rewrite R, X. apply (box_room x from (body t) gap CF CB) in B. rewrite B. destruct (Rlt_dec gap 0); [lra|]. cbn zeta.
    destruct S as [(T & S)|[(T & S)|S]].
    + destruct (Rlt_dec threshold 0); [|lra]. destruct (Rle_dec (aside t) (width / 2)); [reflexivity|lra].
    + destruct (Rlt_dec threshold 0); [lra|]. destruct (Rle_dec (aside t) threshold); [reflexivity|lra].
    + rewrite S. destruct (Rle_dec (aside t) _); reflexivity.
Qed.

(** A target that is in front and so near that the boxes overlap along the lane is not seen. *)
Theorem C165_overlap lowest highest from length width threshold t x :
  along t = Some x -> 0 < x -> contains from -> contains (body t) -> x + low (body t) < high from ->
  spline_distance lowest highest from length width threshold t = None.
Proof.
  intros X P F B O. destruct (spline_distance _ _ _ _ _ _ t) as [d|] eqn:E; [|reflexivity].
  apply C165_ahead in E; [|assumption|assumption]. destruct E as (gap & (_ & _ & (y & Y & G) & N & _) & _).
  assert (y = x) as -> by congruence. unfold counted_room in G. lra.
Qed.
(** So the distance of what is in front is not always found, and something behind is taken to be in front. *)
Theorem C165_overlap_refuted : exists lowest highest from length width t x,
  contains from /\ contains (body t)
  /\ along t = Some x /\ 0 < x /\ aside t = 0 /\ routable t = true /\ lowest <= altitude t <= highest
  /\ spline_distance lowest highest from length width (-1) t = None.
Proof.
  set (b := {| high := 2; low := -2 |}).
  exists 0, 0, b, 4, 2, {| altitude := 0; routable := true; along := Some 3; body := b; aside := 0; crossed := fun _ _ => true; diagonal := 5 |}, 3.
  repeat split; cbn; try lra. apply (C165_overlap _ _ _ _ _ _ _ 3); cbn; try reflexivity; try lra; unfold contains; cbn; lra.
Qed.
Theorem C165_behind_refuted : exists lowest highest from length width t x d,
  contains from /\ contains (body t) /\ along t = Some x /\ x < 0
  /\ spline_distance lowest highest from length width (-1) t = Some d /\ high from < d.
Proof.
  set (b := {| high := 2; low := -2 |}).
  set (t := {| altitude := 0; routable := true; along := Some (-1); body := b; aside := 0; crossed := fun _ _ => true; diagonal := 5 |}).
  assert (Cb : contains b) by (unfold contains; cbn; lra).
  exists 0, 0, b, 4, 2, t, (-1), (3 + 4 / 2).
  split; [exact Cb|]. split; [exact Cb|]. split; [reflexivity|]. split; [lra|]. split; [|cbn; lra].
  apply C165_ahead; [exact Cb|exact Cb|]. exists 3. split; [|reflexivity]. unfold ahead. cbn. repeat split; try lra.
  exists (-1). split; [reflexivity|]. unfold counted_room. cbn. lra.
Qed.
Example C165_example : exists t, contains (body t) /\ ahead 0 0 {| high := 2; low := -2 |} 4 2 (-1) t 6.
Proof.
  exists {| altitude := 0; routable := true; along := Some 10; body := {| high := 2; low := -2 |}; aside := 0; crossed := fun _ _ => false; diagonal := 5 |}.
  unfold ahead, contains. cbn. repeat split; try lra. exists 10. split; [reflexivity|]. unfold counted_room. cbn. lra.
Qed.

Lemma is_on_iff ids o : is_on ids o = true <-> exists l, on_lanelet o = Some l /\ In l ids.
Proof.
  unfold is_on. destruct (on_lanelet o) as [l|].
  - rewrite existsb_exists. split.
    + intros (x & I & E). apply Z.eqb_eq in E. subst x. exists l. auto.
    + intros (x & E & I). injection E as ->. exists x. split; [exact I|apply Z.eqb_refl].
  - split; [discriminate|]. intros (x & E & _). discriminate.
Qed.

(** *** C166: the nearest conflict *)
(** The nearest of the crosswalks with somebody on them and of the entities ahead on conflicting lanes *)
Theorem C166_nearest crosswalks lanes crosswalk lowest highest from length width others :
  contains from -> (forall o, In o others -> contains (body (target o))) ->
  least (fun x => exists o l, In o others /\ on_lanelet o = Some l
          /\ ((In l crosswalks /\ crosswalk l = Some x)
              \/ (In l lanes /\ exists gap, ahead lowest highest from length width (-1) (target o) gap /\ x = gap + length / 2)))
    (nearest_conflict true crosswalks lanes crosswalk lowest highest from length width others).
Proof.
  intros CF CB. unfold nearest_conflict.
  match goal with |- least _ (nearest ?l) => assert (X := nearest_least l) end.
  revert X. apply least_equiv. intro x. rewrite in_app_iff, !in_map_iff. split.
  - intros [(o & E & I)|(o & E & I)]; apply filter_In in I; destruct I as (I & O); apply is_on_iff in O; destruct O as (l & L & J).
    + rewrite L in E. exists o, l. auto.
    + apply C165_ahead in E; auto. exists o, l. auto.
  - intros (o & l & I & L & [(J & E)|(J & E)]).
    + left. exists o. rewrite L. split; [exact E|]. apply filter_In. split; [exact I|]. apply is_on_iff. eauto.
    + right. exists o. apply C165_ahead in E; auto. split; [exact E|]. apply filter_In. split; [exact I|]. apply is_on_iff. eauto.
Qed.
Theorem C166_off_lane crosswalks lanes crosswalk lowest highest from length width others :
  nearest_conflict false crosswalks lanes crosswalk lowest highest from length width others = None.
Proof. reflexivity. Qed.
Example C166_example : exists o, In o [o] /\ on_lanelet o = Some 4%Z
  /\ nearest_conflict true [4%Z] [] (fun _ => Some 8) 0 0 {| high := 2; low := -2 |} 4 2 [o] = Some 8.
Proof.
  exists {| on_lanelet := Some 4%Z; target := {| altitude := 0; routable := true; along := None; body := {| high := 1; low := -1 |}; aside := 0; crossed := fun _ _ => false; diagonal := 5 |} |}.
  cbn. auto.
Qed.

Print Assumptions C161_stop_line.
Print Assumptions C161_light.
Print Assumptions C161_lights.
Print Assumptions C161_lights_refuted.
Print Assumptions C162_yield.
Print Assumptions C162_free.
Print Assumptions C163_room.
Print Assumptions C163_wrong_sides.
Print Assumptions C163_room_refuted.
Print Assumptions C163_lateral.
Print Assumptions C163_defined.
Print Assumptions C164_attained.
Print Assumptions C164_ends.
Print Assumptions C164_straight.
Print Assumptions C164_curved_refuted.
Print Assumptions C165_ahead.
Print Assumptions C165_overlap.
Print Assumptions C165_overlap_refuted.
Print Assumptions C165_behind_refuted.
Print Assumptions C166_nearest.
