(** Theorems about collisions of splines with polygons, and about trajectories (C141 - C145). *)
From Coq Require Import Reals List ZArith Bool Lra Lia Psatz.
From Verif Require Import M_Segment S_Segment P_Segment P_Segment2 M_Solver S_Solver P_Solver
  M_Spline S_Spline P_Spline P_Spline2 P_SplineHit P_SplineTrack T_Spline.
From Verif Require T_Segment.
Import ListNotations.
Open Scope R_scope.

Lemma on_edge_turn : forall p q u, on_edge p q u -> turn p q u = 0.
Proof.
  intros p q u (t & _ & T). unfold at_fraction in T. injection T as TX TY. unfold turn. rewrite TX, TY. ring.
Qed.

(** *** C141: a curve and an edge *)

(** Where the curve is on the edge, a collision is reported. *)
Theorem C141_found : forall c p q s back,
  proper p q -> equation solvable (fun t => turn p q (curve_point c t)) ->
  0 <= s <= 1 -> on_edge p q (curve_point c s) ->
  exists values, curve_collisions c p q back = Some values /\ In s values.
Proof.
  intros c p q s back N K R B. apply equation_along in K. rewrite collisions_unfold, (solvable_guard _ _ _ _ K).
  destruct (solved _ _ _ _ K) as (values & E & F & _). rewrite E. eexists. split; [reflexivity |].
  assert (turn p q (curve_point c s) = 0) as Z by now apply on_edge_turn.
  apply filter_In. split.
  - apply (F s); [now rewrite <- turn_cubic | now apply snapped_inside].
  - now apply fits_between.
Qed.

(** What is reported is within the curve; the curve is on the line through the edge there, or within
    the tolerance of it along the curve, or comes as close as an almost real pair of solutions; and
    if it is on the line, then on the edge. *)
Theorem C141_sound : forall c p q s back values,
  proper p q -> equation solvable (fun t => turn p q (curve_point c t)) ->
  curve_collisions c p q back = Some values -> In s values ->
  0 <= s <= 1 /\
  (turn p q (curve_point c s) = 0 -> on_edge p q (curve_point c s)) /\
  exists t, Rabs (t - s) <= tolerance /\
    (turn p q (curve_point c t) = 0 \/
     exists i w k, 0 < Rabs i <= tolerance /\
       forall u, turn p q (curve_point c u) = k * (u - w) * ((u - t) ^ 2 + i ^ 2)).
Proof.
  intros c p q s back values N K E I. pose proof (collisions_range _ _ _ _ _ _ E I) as R.
  apply equation_along in K. rewrite collisions_unfold, (solvable_guard _ _ _ _ K) in E.
  destruct (solved _ _ _ _ K) as (l & L & _ & F). rewrite L in E. apply some_eq in E. rewrite E in I.
  apply filter_In in I as [I A]. split; [exact R |]. split.
  - intros Z. now apply fits_between.
  - destruct (F s I) as (t & S & H). exists t. split; [now apply snapped_range |].
    destruct H as [H | (i & P & w & H)].
    + left. now rewrite turn_cubic.
    + right. exists i, w, (ka c p q). split; [exact P |]. intros u. rewrite turn_cubic. apply H.
Qed.

(** When all solutions are real, the collisions inside the curve are exactly the common points. *)
Theorem C141_exact : forall c p q back,
  proper p q -> equation exactly_solvable (fun t => turn p q (curve_point c t)) ->
  exists values, curve_collisions c p q back = Some values /\
    forall s, 0 < s < 1 -> (In s values <-> on_edge p q (curve_point c s)).
Proof.
  intros c p q back N K. apply equation_along in K. pose proof (exact_solvable _ _ _ _ K) as K'.
  rewrite collisions_unfold, (solvable_guard _ _ _ _ K').
  destruct (solved_exactly _ _ _ _ K) as (values & E & F). rewrite E. eexists. split; [reflexivity |].
  intros s R. rewrite filter_In, F. split.
  - intros [(t & Z & S) A].
    assert (t = s) as -> by (destruct S as [[_ S] | [[_ S] | [_ S]]]; lra).
    apply fits_between; [exact N | now rewrite turn_cubic | exact A].
  - intros B.
    assert (turn p q (curve_point c s) = 0) as Z by now apply on_edge_turn.
    split; [exists s; split; [now rewrite <- turn_cubic | apply snapped_inside; lra] |].
    now apply fits_between.
Qed.

(** A curve along the line of the edge: only one of its ends is looked at. *)
Theorem C141_along : forall c p q back,
  proper p q -> (forall t, turn p q (curve_point c t) = 0) ->
  exists values, curve_collisions c p q back = Some values /\
    forall s, In s values <-> s = (if back then 1 else 0) /\ on_edge p q (curve_point c s).
Proof.
  intros c p q back N Z.
  destruct (cubic_unique (ka c p q) (kb c p q) (kc c p q) (kd c p q) 0 0 0 0) as (A & B & C & D).
  { intros t. rewrite <- turn_cubic, Z. unfold cubic_at. ring. }
  rewrite collisions_unfold, A, B, C, D, approximately_zero. cbn [andb]. eexists. split; [reflexivity |].
  intros s. rewrite filter_In. cbn [In]. split.
  - intros [[<- | []] F]. split; [reflexivity |]. now apply fits_between.
  - intros [-> O]. split; [now left |]. now apply fits_between.
Qed.

(** So an edge on the middle part of the curve is not met. *)
Theorem C141_along_refuted : exists c p q s,
  proper p q /\ 0 < s < 1 /\ on_edge p q (curve_point c s) /\
  curve_collisions c p q false = Some [] /\ curve_collisions c p q true = Some [].
Proof.
  set (c := curve 0 0 1 0 0 0 0 0 0 0 0 0).
  assert (forall t, curve_point c t = point t 0 0) as C.
  { intros t. apply point_eq; unfold curve_point, c; cbn [x y z ax bx cx dx ay by_ cy dy az bz cz dz]; ring. }
  exists c, (point (1 / 4) 0 0), (point (3 / 4) 0 0), (1 / 2).
  assert (proper (point (1 / 4) 0 0) (point (3 / 4) 0 0)) as N by (left; cbn; lra).
  assert (forall t, turn (point (1 / 4) 0 0) (point (3 / 4) 0 0) (curve_point c t) = 0) as Z.
  { intros t. rewrite C. unfold turn. cbn [x y]. ring. }
  split; [exact N |]. split; [lra |]. split.
  - rewrite C. exists (1 / 2). split; [lra |]. unfold at_fraction. cbn [x y]. f_equal; lra.
  - assert (forall back, curve_collisions c (point (1 / 4) 0 0) (point (3 / 4) 0 0) back = Some []) as H.
    { intros back. destruct (C141_along c _ _ back N Z) as (values & E & F). rewrite E. f_equal.
      destruct values as [| v rest]; [reflexivity |]. exfalso.
      destruct (proj1 (F v) (or_introl eq_refl)) as [-> O]. rewrite C in O.
      destruct O as (k & K & A). unfold at_fraction in A. cbn [x y] in A. injection A as A1 _.
      destruct back; lra. }
    split; apply H.
Qed.

(** *** C142: the first collision of a spline *)

(** The search never fails, for any spline of three or more points and polygon of two or more. *)
Theorem C142_answers : forall raw points sp polygon back range,
  thinned raw points -> (3 <= List.length points)%nat -> spline raw = Some sp ->
  (2 <= List.length polygon)%nat ->
  exists values, spline_collisions sp polygon back range = Some values /\
    forall s, In s values -> 0 <= s <= spline_length sp.
Proof.
  intros raw points sp polygon back range T N E L. rewrite (built _ _ T) in E.
  destruct points as [| p [| q [| r rest]]]; cbn in N; try lia. apply bend_is in E. subst sp.
  pose proof (bend_positive _ _ _ _ _ T) as P. set (cs := curves_of (p :: q :: r :: rest)) in *.
  destruct (bend_in polygon back range cs 0 L) as (values & V & H). exists values. split.
  - destruct polygon as [| a [| b more]]; cbn in L; try lia. exact V.
  - intros s I. apply H in I as (pre & c & post & t & vs & E & _ & S & Q & I).
    destruct (polygon_in c polygon back L) as (vs' & Q' & F). assert (vs' = vs) as -> by congruence.
    apply F in I as (u & v & ws & _ & W & I). pose proof (collisions_range _ _ _ _ _ _ W I) as R.
    assert (0 <= total pre) as A by (apply total_nonneg; intros d D; apply P; rewrite E; apply in_app_iff; now left).
    assert (0 < curve_length c) as B by (apply P; rewrite E; apply in_app_iff; right; now left).
    assert (0 <= total post) as D.
    { apply total_nonneg. intros d D. apply P. rewrite E. apply in_app_iff. right. now right. }
    cbn [spline_length]. fold (total cs). rewrite E, total_app. subst s.
    change (c :: post) with ([c] ++ post). rewrite total_app.
    assert (total [c] = curve_length c) as -> by (unfold total; cbn [map sum]; ring).
    assert (0 <= t * curve_length c <= curve_length c) by nra. lra.
Qed.

Lemma polygon_two : forall polygon p q, edge_of polygon p q -> proper p q -> (2 <= List.length polygon)%nat.
Proof.
  intros polygon p q [N | (f & r & E & P & Q)] D.
  - induction N as [| ? ? ? ? ? IH]; cbn; [lia |]. specialize (IH D). lia.
  - subst. destruct r as [| s r]; [cbn in D; destruct D as [D | D]; now elim D | cbn; lia].
Qed.

Lemma hit_in : forall raw points sp polygon back s0 u p q,
  thinned raw points -> (3 <= List.length points)%nat -> spline raw = Some sp ->
  edge_of polygon p q -> proper p q ->
  (forall points cs c, sp = Bend points cs -> In c cs ->
     equation solvable (fun t => turn p q (curve_point c t))) ->
  0 <= s0 <= spline_length sp -> spline_point sp s0 = Some u -> on_edge p q u ->
  exists values, spline_collisions sp polygon back None = Some values /\ In s0 values.
Proof.
  intros raw points sp polygon back s0 u p q T N E EQ PR K R U O. pose proof (polygon_two _ _ _ EQ PR) as L.
  rewrite (built _ _ T) in E.
  destruct points as [| a [| b [| d rest]]]; cbn in N; try lia. apply bend_is in E. subst sp.
  pose proof (bend_positive _ _ _ _ _ T) as P. pose proof (curves_join a b d rest) as J.
  destruct (bend_curves a b d rest) as (c0 & cs & C & _).
  pose proof (K _ _ c0 eq_refl) as K0. rewrite C in *.
  cbn [spline_length] in R. fold (total (c0 :: cs)) in R.
  destruct (locate cs c0 s0 P R) as (pre & c & post & t & S & TR & S0).
  rewrite bend_point in U by exact P. injection U as U.
  rewrite S0, (walk_split pre c post c0 cs _ t S J P TR) in U. subst u.
  assert (In c (c0 :: cs)) as I by (rewrite S; apply in_app_iff; right; now left).
  pose proof (K _ _ c eq_refl I) as Kc.
  destruct (C141_found c p q t back PR Kc TR O) as (ws & W & IW).
  destruct (bend_in polygon back None (c0 :: cs) 0 L) as (values & V & H).
  destruct (polygon_in c polygon back L) as (vs & Q & F).
  exists values. split.
  - destruct polygon as [| x0 [| y0 more]]; cbn in L; try lia. exact V.
  - apply H. exists pre, c, post, t, vs. split; [exact S |]. split; [reflexivity |].
    split; [lra |]. split; [exact Q |]. apply F. exists p, q, ws. auto.
Qed.

(** Wherever the spline is on the boundary of the polygon, a collision is found that is not later,
    and searching backward one that is not earlier. *)
Theorem C142_first : forall raw points sp polygon s0 u p q,
  thinned raw points -> (3 <= List.length points)%nat -> spline raw = Some sp ->
  edge_of polygon p q -> proper p q ->
  (forall points cs c, sp = Bend points cs -> In c cs ->
     equation solvable (fun t => turn p q (curve_point c t))) ->
  0 <= s0 <= spline_length sp -> spline_point sp s0 = Some u -> on_edge p q u ->
  (exists s, spline_collision sp polygon false None = Found s /\ 0 <= s <= s0) /\
  (exists s, spline_collision sp polygon true None = Found s /\ s0 <= s <= spline_length sp).
Proof.
  intros raw points sp polygon s0 u p q T N E EQ PR K R U O. pose proof (polygon_two _ _ _ EQ PR) as L.
  split.
  - destruct (hit_in _ _ _ _ false _ _ _ _ T N E EQ PR K R U O) as (values & V & I).
    destruct (C142_answers _ _ _ polygon false None T N E L) as (values' & V' & B).
    assert (values' = values) as -> by congruence.
    unfold spline_collision. rewrite V. destruct (least values) as [m |] eqn:M.
    + apply least_some in M as [MI ML]. exists m. split; [reflexivity |].
      split; [now apply B | now apply ML].
    + apply least_none in M. subst values. destruct I.
  - destruct (hit_in _ _ _ _ true _ _ _ _ T N E EQ PR K R U O) as (values & V & I).
    destruct (C142_answers _ _ _ polygon true None T N E L) as (values' & V' & B).
    assert (values' = values) as -> by congruence.
    unfold spline_collision. rewrite V. destruct (greatest values) as [m |] eqn:M.
    + apply greatest_some in M as [MI ML]. exists m. split; [reflexivity |].
      split; [now apply ML | now apply B].
    + apply greatest_none in M. subst values. destruct I.
Qed.

(** What is found is on the boundary, or is a control point (to which solutions within the tolerance
    are moved). *)
Theorem C142_hit : forall raw points sp polygon back range s,
  thinned raw points -> (3 <= List.length points)%nat -> spline raw = Some sp ->
  (forall points cs c p q, sp = Bend points cs -> In c cs -> edge_of polygon p q ->
     proper p q /\ equation exactly_solvable (fun t => turn p q (curve_point c t))) ->
  spline_collision sp polygon back range = Found s ->
  exists u p q, spline_point sp s = Some u /\ edge_of polygon p q /\ (on_edge p q u \/ In u points).
Proof.
  intros raw points sp polygon back range s T N E K H. rewrite (built _ _ T) in E.
  destruct points as [| a [| b [| d rest]]]; cbn in N; try lia. apply bend_is in E. subst sp.
  pose proof (bend_positive _ _ _ _ _ T) as P. pose proof (curves_join a b d rest) as J.
  destruct (bend_curves a b d rest) as (c0 & cs & C & _). rewrite C in *.
  assert (2 <= List.length polygon)%nat as L.
  { unfold spline_collision, spline_collisions in H. destruct polygon as [| u [| v more]]; try discriminate. cbn. lia. }
  destruct (bend_in polygon back range (c0 :: cs) 0 L) as (values & V & F).
  assert (In s values) as I.
  { unfold spline_collision, spline_collisions in H. destruct polygon as [| u [| v more]]; try discriminate.
    rewrite V in H. destruct back.
    - destruct (greatest values) as [m |] eqn:M; [| discriminate]. injection H as <-. now apply greatest_some in M.
    - destruct (least values) as [m |] eqn:M; [| discriminate]. injection H as <-. now apply least_some in M. }
  apply F in I as (pre & c & post & t & vs & S & _ & S0 & Q & I).
  destruct (polygon_in c polygon back L) as (vs' & Q' & G). assert (vs' = vs) as -> by congruence.
  apply G in I as (p & q & ws & EQ & W & I). pose proof (collisions_range _ _ _ _ _ _ W I) as TR.
  assert (In c (c0 :: cs)) as IC by (rewrite S; apply in_app_iff; right; now left).
  destruct (K _ _ c p q eq_refl IC EQ) as [PR Kc].
  exists (curve_point c t), p, q. split; [| split; [exact EQ |]].
  - rewrite bend_point by exact P. f_equal. rewrite S0, Rplus_0_l. eapply walk_split; eassumption.
  - destruct (Req_EM_T t 0) as [-> | N0]; [| destruct (Req_EM_T t 1) as [-> | N1]].
    + right. clear - J IC. revert J IC. generalize (a :: b :: d :: rest). generalize (c0 :: cs).
      intros l. induction l as [| e l IH]; intros pts J I; [easy |].
      inversion J as [| p q more ? ? E0 E1 J' E2]; subst. destruct I as [<- | I]; [now left |].
      right. now apply IH.
    + right. clear - J IC. revert J IC. generalize (a :: b :: d :: rest). generalize (c0 :: cs).
      intros l. induction l as [| e l IH]; intros pts J I; [easy |].
      inversion J as [| p q more ? ? E0 E1 J' E2]; subst. destruct I as [<- | I]; [right; now left |].
      right. now apply IH.
    + left. destruct (C141_exact c p q back PR Kc) as (ws' & W' & X). assert (ws' = ws) as -> by congruence.
      apply X; [lra | exact I].
Qed.

(** A spline of two points: all places found lie on an edge between neighbours of the polygon, and each such edge the
    line meets at an angle yields a place on it. *)
Theorem C142_line : forall raw a b sp polygon back range,
  thinned raw [a; b] -> spline raw = Some sp -> (2 <= List.length polygon)%nat ->
  (forall p q, neighbours polygon p q -> p <> q -> all_visible a b p q /\ epsilon < Rabs (slant a b p q)) ->
  exists values, spline_collisions sp polygon back range = Some values /\
    (forall s, In s values -> 0 <= s <= spline_length sp /\
       exists p q u, neighbours polygon p q /\ spline_point sp s = Some u /\ on_edge p q u) /\
    (forall p q, neighbours polygon p q -> p <> q -> meet a b p q ->
       exists s u, In s values /\ spline_point sp s = Some u /\ on_edge p q u).
Proof.
  intros raw a b sp polygon back range T E L H. rewrite (built _ _ T) in E. injection E as <-.
  assert (forall lines, (forall m, In m lines -> all_visible a b (start_point m) (end_point m) /\
            epsilon < Rabs (slant a b (start_point m) (end_point m))) ->
          exists values, line_collisions (segment a b) lines = Some values /\
            (forall s, In s values -> exists m, In m lines /\ s_value (segment a b) m true = Found s) /\
            (forall m s, In m lines -> s_value (segment a b) m true = Found s -> In s values)) as G.
  { induction lines as [| m lines IH]; intros K.
    - exists []. cbn. repeat split; tauto.
    - destruct (IH (fun n I => K n (or_intror I))) as (values & V & A & B).
      destruct (K m (or_introl eq_refl)) as [W S].
      destruct (s_value (segment a b) m true) as [s | |] eqn:SV.
      + exists (s :: values). cbn [line_collisions]. rewrite SV, V. split; [reflexivity |]. split.
        * intros r [<- | I]; [exists m; split; [now left | exact SV] |].
          destruct (A r I) as (n & N & Q). exists n. split; [now right | exact Q].
        * intros n r [<- | I] Q; [left; congruence | right; now apply (B n)].
      + exists values. cbn [line_collisions]. rewrite SV, V. split; [reflexivity |]. split.
        * intros r I. destruct (A r I) as (n & N & Q). exists n. split; [now right | exact Q].
        * intros n r [<- | I] Q; [congruence | now apply (B n)].
      + exfalso. rewrite s_value_cases in SV by exact W. cbv zeta in SV. cbn [start_point end_point] in SV.
        destruct (is_intersect _ _); [| discriminate]. destruct (Rle_dec _ epsilon); [lra | discriminate]. }
  assert (forall m, In m (get_line_segments polygon false) <->
            neighbours polygon (start_point m) (end_point m) /\ start_point m <> end_point m) as M.
  { intros m. rewrite <- chain_in. destruct polygon as [| u [| v more]]; cbn in L; try lia.
    unfold get_line_segments. now rewrite app_nil_r. }
  destruct (G (get_line_segments polygon false)) as (values & V & A & B).
  { intros m I. apply M in I as [I N]. now apply H. }
  exists values. split; [destruct polygon as [| u [| v more]]; cbn in L; try lia; exact V |]. split.
  - intros s I. apply A in I as (m & I & Q). apply M in I as [I N]. destruct (H _ _ I N) as [W _].
    destruct (T_Segment.C133_position (segment a b) m true s W Q) as (R & p & P & _ & O).
    split; [exact R |]. exists (start_point m), (end_point m), p. split; [exact I |].
    cbn [spline_point]. rewrite P. split; [reflexivity | exact O].
  - intros p q I N O. destruct (H _ _ I N) as [W S].
    destruct (T_Segment.C133_found (segment a b) (segment p q) true W O S) as (s & Q).
    destruct (T_Segment.C133_position (segment a b) (segment p q) true s W Q) as (R & u & P & _ & Z).
    exists s, u. split; [apply (B (segment p q) s); [apply M; now split | exact Q] |].
    cbn [spline_point]. rewrite P. split; [reflexivity | exact Z].
Qed.

(** A spline of two points does not look at the edge that closes the polygon: it ends inside of a
    square and no collision is found. *)
Theorem C142_two_points_refuted : exists raw points sp polygon s0 u p q,
  thinned raw points /\ List.length points = 2%nat /\ spline raw = Some sp /\
  edge_of polygon p q /\ proper p q /\ 0 < s0 < spline_length sp /\
  spline_point sp s0 = Some u /\ on_edge p q u /\
  spline_collision sp polygon false None = Absent.
Proof.
  set (a := point 0 0 0). set (b := point 2 0 0).
  assert (a <> b) as N by (intros E; injection E; lra).
  assert (thinned [a; b] [a; b]) as T by (constructor; [exact N | constructor]).
  assert (length (segment a b) = 2) as L.
  { unfold length, vector_x, vector_y, vector_z, a, b. cbn [start_point end_point x y z].
    replace ((2 - 0) * (2 - 0) + (0 - 0) * (0 - 0) + (0 - 0) * (0 - 0)) with (2 * 2) by ring.
    apply sqrt_square. lra. }
  set (square := [point 1 1 0; point 3 1 0; point 3 (-1) 0; point 1 (-1) 0]).
  exists [a; b], [a; b], (Line (segment a b)), square, 1, (point 1 0 0), (point 1 (-1) 0), (point 1 1 0).
  split; [exact T |]. split; [reflexivity |]. split; [now rewrite (built _ _ T) |].
  split; [right; exists (point 1 1 0), [point 3 1 0; point 3 (-1) 0; point 1 (-1) 0]; repeat split |].
  split; [right; cbn; lra |]. cbn [spline_length]. rewrite L. split; [lra |]. split; [| split].
  - cbn [spline_point]. rewrite segment_point by (try exact N; rewrite L; lra). rewrite L.
    f_equal. unfold plus, times, minus, a, b. cbn [x y z]. f_equal; lra.
  - exists (1 / 2). split; [lra |]. unfold at_fraction. cbn [x y]. f_equal; lra.
  - pose proof epsilon_pos as EP. assert (epsilon < 1) as ES.
    { unfold epsilon. rewrite <- Rinv_1. apply Rinv_lt_contravar; [| apply Rlt_pow_R1; [lra | lia]].
      rewrite Rmult_1_l. apply pow_lt. lra. }
    assert (forall u v, (u, v) = (point 1 1 0, point 3 1 0) \/ (u, v) = (point 3 1 0, point 3 (-1) 0)
                        \/ (u, v) = (point 3 (-1) 0, point 1 (-1) 0) ->
                        s_value (segment a b) (segment u v) true = Absent) as H.
    { intros u v C. unfold s_value, get_intersection.
      assert (is_intersect (segment a b) (segment u v) = false) as ->; [| reflexivity].
      unfold is_intersect, relative_point_position, vector_x, vector_y, a, b.
      destruct C as [C | [C | C]]; injection C as -> ->; cbn [start_point end_point x y];
        repeat match goal with
               | |- context [lt ?m ?n] =>
                   first [ replace (lt m n) with false by (symmetry; apply lt_false; lra)
                         | replace (lt m n) with true by (symmetry; apply lt_true; lra) ]
               end; reflexivity. }
    assert (get_line_segments square false
            = [segment (point 1 1 0) (point 3 1 0); segment (point 3 1 0) (point 3 (-1) 0);
               segment (point 3 (-1) 0) (point 1 (-1) 0)]) as G.
    { assert (same (point 1 1 0) (point 3 1 0) = false) as S1 by (apply same_false; intros E; injection E; lra).
      assert (same (point 3 1 0) (point 3 (-1) 0) = false) as S2 by (apply same_false; intros E; injection E; lra).
      assert (same (point 3 (-1) 0) (point 1 (-1) 0) = false) as S3 by (apply same_false; intros E; injection E; lra).
      unfold get_line_segments, square. cbn [chain app]. now rewrite S1, S2, S3. }
    unfold spline_collision, spline_collisions, square. fold square. rewrite G. cbn [line_collisions].
    rewrite !H by tauto. reflexivity.
Qed.

(** *** C143: ranges and parts of splines *)

(** Collisions strictly after the start of the range and not after its end are all found. *)
Theorem C143_range : forall raw points sp polygon back lo hi s,
  thinned raw points -> (3 <= List.length points)%nat -> spline raw = Some sp ->
  lo < s <= hi ->
  (exists values, spline_collisions sp polygon back None = Some values /\ In s values) ->
  exists values, spline_collisions sp polygon back (Some (lo, hi)) = Some values /\ In s values.
Proof.
  intros raw points sp polygon back lo hi s T N E R (values & V & I). rewrite (built _ _ T) in E.
  destruct points as [| a [| b [| d rest]]]; cbn in N; try lia. apply bend_is in E. subst sp.
  pose proof (bend_positive _ _ _ _ _ T) as P. set (cs := curves_of (a :: b :: d :: rest)) in *.
  assert (2 <= List.length polygon)%nat as L.
  { unfold spline_collisions in V. destruct polygon as [| u [| v more]]; try discriminate. cbn. lia. }
  destruct (bend_in polygon back None cs 0 L) as (values' & V' & F').
  assert (values' = values) as ->.
  { unfold spline_collisions in V. destruct polygon as [| u [| v more]]; try discriminate. congruence. }
  destruct (bend_in polygon back (Some (lo, hi)) cs 0 L) as (ws & W & F).
  exists ws. split.
  - unfold spline_collisions. destruct polygon as [| u [| v more]]; cbn in L; try lia. exact W.
  - apply F. apply F' in I as (pre & c & post & t & vs & S & _ & S0 & Q & I).
    exists pre, c, post, t, vs. split; [exact S |]. split; [| auto].
    destruct (polygon_in c polygon back L) as (vs' & Q' & G). assert (vs' = vs) as -> by congruence.
    apply G in I as (p & q & us & _ & U & I). pose proof (collisions_range _ _ _ _ _ _ U I) as TR.
    assert (0 < curve_length c) as B by (apply P; rewrite S; apply in_app_iff; right; now left).
    unfold curve_in_range. apply andb_true_iff. rewrite orb_true_iff, !le_true, lt_true. nra.
Qed.

Lemma straight_equation : forall c u d p q, straight c u d ->
  tolerance < Rabs (y d * (x q - x p) - x d * (y q - y p)) ->
  equation exactly_solvable (fun t => turn p q (curve_point c t)).
Proof.
  intros c u d p q S H. exists 0, 0, (y d * (x q - x p) - x d * (y q - y p)), (turn p q u). split.
  - intros t. rewrite (straight_point _ _ _ _ S). unfold turn, cubic_at, plus, times. cbn [x y]. ring.
  - right. right. auto.
Qed.

Definition road : list Point := evenly zero (point 1 0 0) 3.
Definition bar (k : R) : list Point := [point k (-1) 0; point k 1 0].

Lemma road_is : forall sp, thinned road road -> spline road = Some sp ->
  sp = Bend (evenly zero (point 1 0 0) 3) (curves_of (evenly zero (point 1 0 0) 3)).
Proof. intros sp T E. rewrite (built _ _ T) in E. apply bend_is in E. exact E. Qed.

Lemma road_met : exists sp, thinned road road /\ spline road = Some sp /\ spline_length sp = 2 /\
  (forall s, 0 <= s <= 2 -> spline_point sp s = Some (point s 0 0)) /\
  (forall points cs c k, sp = Bend points cs -> In c cs ->
     equation exactly_solvable (fun t => turn (point k (-1) 0) (point k 1 0) (curve_point c t))).
Proof.
  assert (point 1 0 0 <> zero) as N by (intros E; injection E; lra).
  assert (thinned road road) as T by now apply evenly_thinned.
  assert (road <> []) as R by discriminate. destruct (proj2 (C137_built road) R) as [sp E].
  assert (norm (point 1 0 0) = 1) as M.
  { unfold norm. cbn [x y z]. replace (1 * 1 + 0 * 0 + 0 * 0) with (1 * 1) by ring. apply sqrt_square. lra. }
  destruct (C139_even zero (point 1 0 0) 3 sp N ltac:(lia) E) as [L H].
  exists sp. split; [exact T |]. split; [exact E |].
  assert (spline_length sp = 2) as L2 by (rewrite L, M; cbn; ring). split; [exact L2 |]. split.
  - intros s S. rewrite L2 in H. destruct (H s S) as [A _]. rewrite A. f_equal.
    apply point_eq; unfold plus, times, zero; cbn [x y z]; rewrite M; field.
  - intros points cs c k B I. rewrite (road_is _ T E) in B. clear E.
    assert (cs = curves_of (evenly zero (point 1 0 0) 3)) as -> by congruence.
    pose proof (curves_run 0 zero (point 1 0 0)) as RN. clear - I RN.
    assert (forall l u d e, run u d l -> In e l -> exists v, straight e v d) as X.
    { clear. induction l as [| c l IH]; intros u d e R I; [easy |]. destruct R as [S R].
      destruct I as [<- | I]; [eauto | eapply IH; eassumption]. }
    destruct (X _ _ _ _ RN I) as [v S]. eapply straight_equation; [exact S |]. cbn [x y].
    replace (0 * (k - k) - 1 * (1 - -1)) with (-2) by ring. rewrite Rabs_left by lra.
    pose proof tolerance_small. lra.
Qed.

Lemma bar_edges : forall k p q, edge_of (bar k) p q <->
  (p = point k (-1) 0 /\ q = point k 1 0) \/ (p = point k 1 0 /\ q = point k (-1) 0).
Proof.
  intros k p q. unfold edge_of, bar. split.
  - intros [N | (f & r & E & -> & ->)].
    + inversion N as [| ? ? ? ? M]; subst; [tauto |]. inversion M as [| ? ? ? ? O]; subst. inversion O.
    + injection E as <- <-. right. split; reflexivity.
  - intros [[-> ->] | [-> ->]]; [left; constructor | right; exists (point k (-1) 0), [point k 1 0]; repeat split].
Qed.

(** Only whole curves are left out: a collision before the range may be handed back. *)
Theorem C143_range_refuted : exists raw points sp polygon lo hi s,
  thinned raw points /\ (3 <= List.length points)%nat /\ spline raw = Some sp /\
  0 < lo < hi /\ spline_collision sp polygon false (Some (lo, hi)) = Found s /\ s < lo.
Proof.
  destruct road_met as (sp & T & E & L & H & K).
  exists road, road, sp, (bar (1 / 4)), (1 / 2), (3 / 4).
  pose proof (H (1 / 4) ltac:(lra)) as U.
  assert (on_edge (point (1 / 4) (-1) 0) (point (1 / 4) 1 0) (point (1 / 4) 0 0)) as O.
  { exists (1 / 2). split; [lra |]. unfold at_fraction. cbn [x y]. f_equal; lra. }
  pose proof (road_is _ T E) as B.
  pose proof (fun c => K _ _ c (1 / 4) B) as Kc.
  set (c0 := first_curve zero (plus zero (point 1 0 0)) (plus (plus zero (point 1 0 0)) (point 1 0 0))).
  assert (straight c0 zero (point 1 0 0)) as S by (unfold c0; straighten).
  assert (In c0 (curves_of road)) as I by (now left).
  assert (proper (point (1 / 4) (-1) 0) (point (1 / 4) 1 0)) as PR by (right; cbn; lra).
  assert (on_edge (point (1 / 4) (-1) 0) (point (1 / 4) 1 0) (curve_point c0 (1 / 4))) as O'.
  { rewrite (straight_point _ _ _ _ S). replace (plus zero (times (1 / 4) (point 1 0 0))) with (point (1 / 4) 0 0); [exact O |].
    apply point_eq; unfold plus, times, zero; cbn [x y z]; field. }
  assert (equation solvable (fun t => turn (point (1 / 4) (-1) 0) (point (1 / 4) 1 0) (curve_point c0 t))) as Ks.
  { destruct (Kc c0 I) as (a & b & c & d & A1 & A2). exists a, b, c, d. split; [exact A1 | now apply exact_solvable]. }
  destruct (C141_found c0 _ _ (1 / 4) false PR Ks ltac:(lra) O') as (vs & V & IV).
  destruct (bend_in (bar (1 / 4)) false (Some (1 / 2, 3 / 4)) (curves_of road) 0 ltac:(cbn; lia)) as (values & W & F).
  destruct (polygon_in c0 (bar (1 / 4)) false ltac:(cbn; lia)) as (us & Q & G).
  assert (norm (point 1 0 0) = 1) as M.
  { unfold norm. cbn [x y z]. replace (1 * 1 + 0 * 0 + 0 * 0) with (1 * 1) by ring. apply sqrt_square. lra. }
  pose proof (straight_length _ _ _ S) as Lc. rewrite M in Lc.
  assert (In (1 / 4) values) as IN.
  { apply F. exists [], c0, (tl (curves_of road)), (1 / 4), us. split; [reflexivity |].
    assert (total [] = 0) as -> by reflexivity. rewrite Lc. split; [| split; [lra | split; [exact Q |]]].
    - unfold curve_in_range. apply andb_true_iff. rewrite orb_true_iff, !le_true, lt_true. lra.
    - apply G. exists (point (1 / 4) (-1) 0), (point (1 / 4) 1 0), vs. split; [| auto]. apply bar_edges. now left. }
  destruct (least values) as [m |] eqn:ML.
  - exists m. split; [exact T |]. split; [cbn; lia |]. split; [exact E |].
    split; [lra |]. split.
    + unfold spline_collision.
      assert (spline_collisions sp (bar (1 / 4)) false (Some (1 / 2, 3 / 4)) = Some values) as ->
        by (rewrite B; exact W).
      now rewrite ML.
    + apply least_some in ML as [_ ML]. specialize (ML _ IN). lra.
  - apply least_none in ML. subst values. destruct IN.
Qed.

(** A part of a spline hands back the first of the spline's collisions inside of it, counted from
    its own start, and the last when searching backward; and nothing only if there is none. A range is
    counted from the start of the part, too. *)
Theorem C143_part : forall sp start_s end_s polygon back range values,
  start_s <= end_s ->
  spline_collisions sp polygon back
    (option_map (fun r => (start_s + fst r, start_s + snd r)) range) = Some values ->
  match subspline_collision sp start_s end_s polygon back range with
  | Found s => 0 <= s <= end_s - start_s /\ In (start_s + s) values /\
      forall v, In v values -> start_s <= v <= end_s ->
        if back then v <= start_s + s else start_s + s <= v
  | Absent => forall v, In v values -> ~ start_s <= v <= end_s
  | Error => False
  end.
Proof.
  intros sp a b polygon back range values L V. unfold subspline_collision.
  assert (lt b a = false) as -> by now apply lt_false. cbv zeta.
  assert (match range with Some (u, v) => Some (u + a, v + a) | None => None end =
          option_map (fun r => (a + fst r, a + snd r)) range) as ->.
  { destruct range as [[u v]|]; [|reflexivity]. cbn. rewrite (Rplus_comm u), (Rplus_comm v). reflexivity. }
  rewrite V.
  set (inside := filter (fun s => le a s && le s b) values).
  assert (forall v, In v inside <-> In v values /\ a <= v <= b) as H.
  { intros v. unfold inside. rewrite filter_In, andb_true_iff, !le_true. tauto. }
  clearbody inside. destruct back.
  - destruct (greatest inside) as [m |] eqn:M.
    + apply greatest_some in M as [I G]. apply H in I as [I R]. split; [lra |].
      replace (a + (m - a)) with m by ring. split; [exact I |]. intros v Iv Rv. apply G, H. auto.
    + apply greatest_none in M. subst inside. intros v I R. apply (H v). auto.
  - destruct (least inside) as [m |] eqn:M.
    + apply least_some in M as [I G]. apply H in I as [I R]. split; [lra |].
      replace (a + (m - a)) with m by ring. split; [exact I |]. intros v Iv Rv. apply G, H. auto.
    + apply least_none in M. subst inside. intros v I R. apply (H v). auto.
Qed.

(** *** C144: sampled trajectories *)

(** From the start to the end, both included, in equal steps of which only the last may be
    shorter. *)
Theorem C144_samples : forall start_s end_s resolution, epsilon < Rabs resolution ->
  exists n l, (forall fuel, (n < fuel)%nat -> trajectory_positions fuel start_s end_s resolution = Found l) /\
    hd_error l = Some start_s /\ last l 0 = end_s /\
    forall k u v, nth_error l k = Some u -> nth_error l (S k) = Some v ->
      0 < Rabs (v - u) <= Rabs resolution /\ (v <> end_s -> Rabs (v - u) = Rabs resolution) /\
      (start_s <= end_s -> u < v) /\ (end_s < start_s -> v < u).
Proof.
  intros a b r H. pose proof epsilon_pos as EP. assert (0 < Rabs r) as P by lra.
  assert (le (Rabs r) epsilon = false) as G by now apply le_false.
  destruct (lt b a) eqn:D.
  - apply lt_true in D as D'. destruct (enough (- b - - a) (Rabs r) P) as [n N].
    destruct (upward_enough n (- a) (- b) (Rabs r) P N) as [l L]. exists n, (map Ropp l).
    pose proof (upward_climb _ _ _ _ _ (L (S n) ltac:(lia))) as C. split; [| split; [| split]].
    + intros fuel F. unfold trajectory_positions. rewrite G, D, downward_mirror, (L fuel F). reflexivity.
    + inversion C; subst; [lra |]. cbn. now rewrite Ropp_involutive.
    + rewrite <- Ropp_0, last_map, (climb_last _ _ _ _ C). apply Ropp_involutive.
    + intros k u v U V. apply map_nth_inv in U as (u' & U & ->). apply map_nth_inv in V as (v' & V & ->).
      destruct (climb_steps _ _ _ _ P C k u' v' U V) as [S1 S2].
      replace (- v' - - u') with (- (v' - u')) by ring. rewrite Rabs_Ropp, Rabs_right by lra.
      split; [lra |]. split; [| split; lra]. intros X. rewrite S2; [ring |]. intros E. apply X. rewrite E. ring.
  - apply lt_false in D as D'. destruct (enough (b - a) (Rabs r) P) as [n N].
    destruct (upward_enough n a b (Rabs r) P N) as [l L]. exists n, l.
    pose proof (upward_climb _ _ _ _ _ (L (S n) ltac:(lia))) as C. split; [| split; [| split]].
    + intros fuel F. unfold trajectory_positions. rewrite G, D, (L fuel F). reflexivity.
    + inversion C; subst; [| reflexivity]. cbn. f_equal. lra.
    + apply (climb_last _ _ _ _ C).
    + intros k u v U V. destruct (climb_steps _ _ _ _ P C k u v U V) as [S1 S2].
      rewrite Rabs_right by lra. split; [lra |]. split; [| split; lra]. intros X. rewrite S2 by exact X. ring.
Qed.

(** A step of zero is refused. *)
Theorem C144_zero_step : forall fuel start_s end_s resolution,
  Rabs resolution <= epsilon <-> trajectory_positions fuel start_s end_s resolution = Error.
Proof.
  intros fuel a b r. unfold trajectory_positions. destruct (le (Rabs r) epsilon) eqn:E.
  - apply le_true in E. tauto.
  - apply le_false in E. split; [lra |]. intros H. exfalso.
    destruct (if lt b a then downward fuel a b (Rabs r) else upward fuel a b (Rabs r)); discriminate.
Qed.

(** The trajectory of a single curve, used for lane changes, leaves out its start and ends beyond
    its end. *)
Theorem C144_curve_refuted : forall start_s end_s resolution,
  start_s <= end_s -> 0 < Rabs resolution ->
  exists n l, (forall fuel, (n < fuel)%nat ->
                 curve_trajectory_positions fuel start_s end_s resolution = Some l) /\
    ~ In start_s l /\ end_s < last l 0.
Proof.
  intros a b r L P. destruct (enough (b - a + 1) (Rabs r) P) as [n N].
  destruct (curve_upward_beyond n a b (Rabs r) P ltac:(lra) L) as (l & F & A & _ & Z).
  exists n, l. split; [| split].
  - intros fuel H. unfold curve_trajectory_positions. assert (le a b = true) as -> by now apply le_true. now apply F.
  - intros I. apply A in I. lra.
  - apply Z.
Qed.

(** *** C145: altitudes *)

(** The least and the greatest altitude of the control points of the part, if it has any. *)
Theorem C145_altitudes : forall points lengths a b lo hi,
  (List.length lengths = List.length points - 1)%nat ->
  altitude_range points lengths a b = (lo, hi) ->
  let inside v := exists k p, nth_error points k = Some p /\ z p = v /\ a <= sum (firstn k lengths) <= b in
  (exists v, inside v) -> inside lo /\ inside hi /\ forall v, inside v -> lo <= v <= hi.
Proof.
  intros points lengths a b lo hi L E inside [v0 V0].
  assert (forall v, In v (altitudes points lengths 0 a b) <-> inside v) as H.
  { intros v. rewrite (altitudes_in points lengths a b 0 v L). unfold inside.
    split; intros (k & p & A & B & C); exists k, p; (split; [exact A | split; [exact B | lra]]). }
  unfold altitude_range in E. set (l := altitudes points lengths 0 a b) in *. clearbody l.
  destruct (least l) as [m |] eqn:M; [| apply least_none in M; subst l; now apply H in V0].
  destruct (greatest l) as [g |] eqn:G; [| apply greatest_none in G; subst l; now apply H in V0].
  injection E as <- <-. apply least_some in M as [MI ML]. apply greatest_some in G as [GI GL].
  split; [now apply H |]. split; [now apply H |]. intros v V. apply H in V. split; [now apply ML | now apply GL].
Qed.

(** Without a control point in the part, every altitude that is not positive counts as outside: the
    least double that is meant is the least positive one. *)
Theorem C145_below_zero_refuted : forall points lengths a b lo hi v,
  (List.length lengths = List.length points - 1)%nat ->
  (forall k, (k < List.length points)%nat -> ~ a <= sum (firstn k lengths) <= b) ->
  altitude_range points lengths a b = (lo, hi) -> v <= 0 -> v < lo.
Proof.
  intros points lengths a b lo hi v L N E V. unfold altitude_range in E.
  assert (altitudes points lengths 0 a b = []) as A.
  { destruct (altitudes points lengths 0 a b) as [| w l] eqn:X; [reflexivity |]. exfalso.
    assert (In w (altitudes points lengths 0 a b)) as I by (rewrite X; now left).
    apply (altitudes_in points lengths a b 0 w L) in I as (k & p & P & _ & R).
    apply (N k); [apply nth_error_Some; congruence | lra]. }
  rewrite A in E. cbn [least greatest] in E. injection E as <- _.
  assert (0 < double_min) by (unfold double_min; apply Rinv_0_lt_compat, pow_lt; lra). lra.
Qed.

(** *** Examples *)

(** The straight road of 2 m and a bar across it at 1.5 m meet the hypotheses of C142. *)
Example bar_found : exists sp s, spline road = Some sp /\
  spline_collision sp (bar (3 / 2)) false None = Found s /\ 0 <= s <= 3 / 2.
Proof.
  destruct road_met as (sp & T & E & L & H & K). exists sp.
  destruct (C142_first road road sp (bar (3 / 2)) (3 / 2) (point (3 / 2) 0 0) (point (3 / 2) (-1) 0) (point (3 / 2) 1 0))
    as [(s & F & R) _]; try assumption.
  - cbn. lia.
  - apply bar_edges. now left.
  - right. cbn. lra.
  - intros points cs c B I. destruct (K points cs c (3 / 2) B I) as (a & b & cc & d & A1 & A2).
    exists a, b, cc, d. split; [exact A1 | now apply exact_solvable].
  - rewrite L. lra.
  - apply H. lra.
  - exists (1 / 2). split; [lra |]. unfold at_fraction. cbn [x y]. f_equal; lra.
  - exists s. auto.
Qed.

Example bar_hit_met : exists sp, spline road = Some sp /\
  forall points cs c p q, sp = Bend points cs -> In c cs -> edge_of (bar (3 / 2)) p q ->
     proper p q /\ equation exactly_solvable (fun t => turn p q (curve_point c t)).
Proof.
  destruct road_met as (sp & T & E & L & H & K). exists sp. split; [exact E |].
  intros points cs c p q B I EQ. pose proof (K points cs c (3 / 2) B I) as (a & b & cc & d & A1 & A2).
  apply bar_edges in EQ as [[-> ->] | [-> ->]].
  - split; [right; cbn; lra |]. exists a, b, cc, d. auto.
  - split; [right; cbn; lra |]. clear A1 A2 a b cc d.
    rewrite (road_is _ T E) in B. clear E.
    assert (cs = curves_of (evenly zero (point 1 0 0) 3)) as -> by congruence.
    pose proof (curves_run 0 zero (point 1 0 0)) as RN. clear - I RN.
    assert (forall l u d e, run u d l -> In e l -> exists v, straight e v d) as X.
    { clear. induction l as [| c l IH]; intros u d e R I; [easy |]. destruct R as [S R].
      destruct I as [<- | I]; [eauto | eapply IH; eassumption]. }
    destruct (X _ _ _ _ RN I) as [v S]. eapply straight_equation; [exact S |]. cbn [x y].
    match goal with |- tolerance < Rabs ?e => replace e with 2 by ring end. rewrite Rabs_right by lra.
    pose proof tolerance_small. lra.
Qed.

Example altitudes_met :
  altitude_range [point 0 0 5; point 1 0 7; point 2 0 6] [1; 1] (1 / 2) 3 = (6, 7).
Proof.
  unfold altitude_range. cbn [altitudes].
  assert (le (1 / 2) 0 = false) as -> by (apply le_false; lra). cbn [andb app].
  replace (0 + 1) with 1 by ring. replace (1 + 1) with 2 by ring.
  assert (le (1 / 2) 1 = true) as -> by (apply le_true; lra).
  assert (le (1 / 2) 2 = true) as -> by (apply le_true; lra).
  assert (le 1 3 = true) as -> by (apply le_true; lra).
  assert (le 2 3 = true) as -> by (apply le_true; lra). cbn [andb app least greatest z].
  f_equal; [apply Rmin_right | apply Rmax_left]; lra.
Qed.

Print Assumptions C141_found.
Print Assumptions C141_sound.
Print Assumptions C141_exact.
Print Assumptions C141_along.
Print Assumptions C141_along_refuted.
Print Assumptions C142_answers.
Print Assumptions C142_first.
Print Assumptions C142_hit.
Print Assumptions C142_two_points_refuted.
Print Assumptions C143_range.
Print Assumptions C143_range_refuted.
Print Assumptions C143_part.
Print Assumptions C144_samples.
Print Assumptions C144_zero_step.
Print Assumptions C144_curve_refuted.
Print Assumptions C145_altitudes.
Print Assumptions C145_below_zero_refuted.
