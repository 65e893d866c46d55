(** Collisions of curves and splines with polygons *)
From Coq Require Import Reals List ZArith Bool Lra Lia Psatz.
From Verif Require Import M_Segment S_Segment P_Segment P_Segment2 M_Solver S_Solver P_Solver T_Solver
  M_Spline S_Spline P_Spline P_Spline2.
Import ListNotations.
Open Scope R_scope.

(** *** One curve and one edge *)

Definition ka (c : Curve) (p q : Point) := ay c * (x q - x p) - ax c * (y q - y p).
Definition kb (c : Curve) (p q : Point) := by_ c * (x q - x p) - bx c * (y q - y p).
Definition kc (c : Curve) (p q : Point) := cy c * (x q - x p) - cx c * (y q - y p).
Definition kd (c : Curve) (p q : Point) :=
  dy c * (x q - x p) - dx c * (y q - y p) - (x q - x p) * y p + (y q - y p) * x p.

Lemma turn_cubic : forall c p q t,
  turn p q (curve_point c t) = cubic_at (ka c p q) (kb c p q) (kc c p q) (kd c p q) t.
Proof. intros. unfold turn, cubic_at, curve_point, ka, kb, kc, kd. cbn [x y]. ring. Qed.

Lemma cubic_unique : forall a b c d a' b' c' d',
  (forall t, cubic_at a b c d t = cubic_at a' b' c' d' t) -> a = a' /\ b = b' /\ c = c' /\ d = d'.
Proof.
  intros a b c d a' b' c' d' H. unfold cubic_at in H.
  pose proof (H 0). pose proof (H 1). pose proof (H (-1)). pose proof (H 2). lra.
Qed.

Lemma equation_along : forall K c p q, equation K (fun t => turn p q (curve_point c t)) ->
  K (ka c p q) (kb c p q) (kc c p q) (kd c p q).
Proof.
  intros K c p q (a & b & cc & d & E & H).
  destruct (cubic_unique (ka c p q) (kb c p q) (kc c p q) (kd c p q) a b cc d) as (-> & -> & -> & ->).
  - intros t. now rewrite <- turn_cubic.
  - exact H.
Qed.

Lemma exact_solvable : forall a b c d, exactly_solvable a b c d -> solvable a b c d.
Proof.
  intros a b c d [(A & q & r & R & Q & H) | H]; [left | right; exact H].
  split; [exact A |]. exists q, r. split; [exact R | now left].
Qed.

Lemma room : 0 + tolerance <= 1.
Proof. pose proof tolerance_small. lra. Qed.

Lemma approximately_zero : approximately 0 0 = true.
Proof. apply approximately_0_true. rewrite Rabs_R0. left. apply tolerance_pos. Qed.

Lemma solved : forall a b c d, solvable a b c d ->
  exists values, solve_cubic a b c d 0 1 = Some values /\
    (forall t v, cubic_at a b c d t = 0 -> snapped 0 1 t v -> In v values) /\
    (forall v, In v values -> exists t, snapped 0 1 t v /\
       (cubic_at a b c d t = 0 \/ exists i, 0 < Rabs i <= tolerance /\ complex_pair a b c d t i)).
Proof.
  intros a b c d [(A & q & r & R & S) | [(-> & B & D) | (-> & -> & C)]].
  - destruct (C136_complete a b c d q r 0 1 room A R S) as (values & E & H).
    exists values. split; [exact E |]. split; [exact H |]. intros v I.
    eapply C136_sound; try eassumption. apply room.
  - destruct (C135_quadratic b c d 0 1 room B D) as (values & E & H). exists values.
    unfold solve_cubic. rewrite approximately_zero. split; [exact E |]. split.
    + intros t v Z S. apply H. exists t. split; [| exact S]. unfold cubic_at in Z. unfold quadratic_at. lra.
    + intros v I. apply H in I as (t & Z & S). exists t. split; [exact S |]. left.
      unfold cubic_at. unfold quadratic_at in Z. lra.
  - destruct (C135_linear c d 0 1 room C) as (values & E & H). exists values.
    unfold solve_cubic, solve_quadratic. rewrite !approximately_zero. split; [exact E |]. split.
    + intros t v Z S. apply H. exists t. split; [| exact S]. unfold cubic_at in Z. lra.
    + intros v I. apply H in I as (t & Z & S). exists t. split; [exact S |]. left. unfold cubic_at. lra.
Qed.

Lemma solved_exactly : forall a b c d, exactly_solvable a b c d ->
  exists values, solve_cubic a b c d 0 1 = Some values /\
    forall v, In v values <-> exists t, cubic_at a b c d t = 0 /\ snapped 0 1 t v.
Proof.
  intros a b c d [(A & q & r & R & Q & H) | [(-> & B & D) | (-> & -> & C)]].
  - exact (C136_three_exact a b c d q r 0 1 room A R Q H).
  - destruct (C135_quadratic b c d 0 1 room B D) as (values & E & H). exists values.
    unfold solve_cubic. rewrite approximately_zero. split; [exact E |]. intros v. rewrite H.
    unfold cubic_at, quadratic_at. split; intros (t & Z & S); exists t; split; try exact S; lra.
  - destruct (C135_linear c d 0 1 room C) as (values & E & H). exists values.
    unfold solve_cubic, solve_quadratic. rewrite !approximately_zero. split; [exact E |]. intros v.
    rewrite H. unfold cubic_at. split; intros (t & Z & S); exists t; split; try exact S; lra.
Qed.

Lemma solvable_guard : forall a b c d, solvable a b c d ->
  approximately a 0 && approximately b 0 && approximately c 0 && approximately d 0 = false.
Proof.
  intros a b c d [(A & _) | [(_ & B & _) | (_ & _ & C)]].
  - apply approximately_0_false in A. now rewrite A.
  - apply approximately_0_false in B. rewrite B. now rewrite andb_false_r.
  - apply approximately_0_false in C. rewrite C. now rewrite andb_false_r.
Qed.

Lemma solve_cubic_some : forall a b c d lo hi,
  approximately a 0 && approximately b 0 && approximately c 0 && approximately d 0 = false ->
  exists values, solve_cubic a b c d lo hi = Some values.
Proof.
  intros a b c d lo hi H. unfold solve_cubic, solve_quadratic, solve_linear.
  destruct (approximately a 0); [| eauto]. destruct (approximately b 0); [| eauto].
  destruct (approximately c 0); [| eauto]. cbn [andb] in H. rewrite H. eauto.
Qed.

(** The test made for a solution *)
Definition fits_edge (c : Curve) (p q : Point) (t : R) : bool :=
  accepted (quotient (cubic (ax c) (bx c) (cx c) (dx c) t - x p) (x q - x p))
           (quotient (cubic (ay c) (by_ c) (cy c) (dy c) t - y p) (y q - y p)).

Lemma cubic_x : forall c t, cubic (ax c) (bx c) (cx c) (dx c) t = x (curve_point c t).
Proof. intros. unfold cubic, curve_point. cbn [x]. ring. Qed.
Lemma cubic_y : forall c t, cubic (ay c) (by_ c) (cy c) (dy c) t = y (curve_point c t).
Proof. intros. unfold cubic, curve_point. cbn [y]. ring. Qed.

Lemma unit_true : forall v, in_unit (Some v) = true <-> 0 <= v <= 1.
Proof. intros v. cbn [in_unit]. rewrite andb_true_iff, !le_true. tauto. Qed.

Lemma fits_between : forall c p q t, proper p q -> turn p q (curve_point c t) = 0 ->
  (fits_edge c p q t = true <-> on_edge p q (curve_point c t)).
Proof.
  intros c p q t N T. unfold fits_edge. rewrite cubic_x, cubic_y.
  destruct (flat_at _ _ _ T N) as [k K]. set (u := curve_point c t) in *. clearbody u.
  unfold on_edge.
  assert (between p q (x u, y u) <-> 0 <= k <= 1) as ->.
  { split; [| intros R; now exists k]. intros (m & M & E). rewrite K in E. unfold at_fraction in E.
    injection E as E1 E2. assert (m = k) as <-; [| exact M].
    destruct N as [N | N]; [apply Rmult_eq_reg_r with (x q - x p) | apply Rmult_eq_reg_r with (y q - y p)]; lra. }
  unfold at_fraction in K. injection K as KX KY. rewrite KX, KY.
  assert (forall a b, b <> 0 -> quotient (a + k * b - a) b = Some k) as Q.
  { intros a b B. unfold quotient. destruct (Req_EM_T b 0); [contradiction |]. f_equal. field. exact B. }
  assert (forall a b, b = 0 -> quotient (a + k * b - a) b = None) as Q0.
  { intros a b ->. unfold quotient. destruct (Req_EM_T 0 0); [reflexivity | lra]. }
  destruct (Req_EM_T (x q - x p) 0) as [EX | EX], (Req_EM_T (y q - y p) 0) as [EY | EY].
  - exfalso. destruct N; lra.
  - rewrite (Q0 _ _ EX), (Q _ _ EY). cbn [accepted]. rewrite orb_true_iff, unit_true. cbn [in_unit].
    split; [intros [H | H]; [discriminate | exact H] | tauto].
  - rewrite (Q _ _ EX), (Q0 _ _ EY). cbn [accepted]. rewrite orb_true_iff, unit_true. cbn [in_unit].
    split; [intros [H | H]; [exact H | discriminate] | tauto].
  - rewrite (Q _ _ EX), (Q _ _ EY). unfold accepted. rewrite Rminus_eq_0, Rabs_R0.
    assert (lt epsilon 0 = false) as -> by (apply lt_false; left; apply epsilon_pos).
    rewrite andb_true_iff, unit_true. tauto.
Qed.

Lemma collisions_unfold : forall c p q back,
  curve_collisions c p q back =
  match (if approximately (ka c p q) 0 && approximately (kb c p q) 0 && approximately (kc c p q) 0
            && approximately (kd c p q) 0
         then Some [if back then 1 else 0]
         else solve_cubic (ka c p q) (kb c p q) (kc c p q) (kd c p q) 0 1) with
  | None => None
  | Some values => Some (filter (fits_edge c p q) values)
  end.
Proof. reflexivity. Qed.

Lemma collisions_some : forall c p q back, exists values, curve_collisions c p q back = Some values.
Proof.
  intros c p q back. rewrite collisions_unfold.
  destruct (approximately (ka c p q) 0 && approximately (kb c p q) 0 && approximately (kc c p q) 0
            && approximately (kd c p q) 0) eqn:G; [eauto |].
  destruct (solve_cubic_some _ _ _ _ 0 1 G) as [values ->]. eauto.
Qed.

Lemma snapped_inside : forall t, 0 <= t <= 1 -> snapped 0 1 t t.
Proof. intros t R. left. auto. Qed.

Lemma snapped_range : forall t v, snapped 0 1 t v -> 0 <= v <= 1 /\ Rabs (t - v) <= tolerance.
Proof.
  intros t v [[R ->] | [[R ->] | [R ->]]]; pose proof tolerance_pos; (split; [lra |]);
    unfold Rabs; destruct (Rcase_abs _); lra.
Qed.

Lemma filtered_range : forall values lo hi v, lo <= hi -> In v (filter_by_range values lo hi) -> lo <= v <= hi.
Proof.
  induction values as [| w values IH]; intros lo hi v L I; cbn [filter_by_range] in I; [easy |].
  destruct (in_range w lo hi) as [u |] eqn:E; [| now apply IH].
  destruct I as [<- | I]; [| now apply IH]. unfold in_range in E. destruct w as [w |]; [| discriminate].
  destruct (le lo w && le w hi) eqn:B.
  - injection E as <-. apply andb_true_iff in B as [A B]. apply le_true in A. apply le_true in B. lra.
  - destruct (le (Rabs (w - hi)) tolerance); [injection E as <-; lra |].
    destruct (le (Rabs (w - lo)) tolerance); [injection E as <-; lra | discriminate].
Qed.

Lemma some_eq : forall A (u v : A), Some u = Some v -> v = u.
Proof. congruence. Qed.

Lemma solutions_range : forall a b c d values v, solve_cubic a b c d 0 1 = Some values ->
  In v values -> 0 <= v <= 1.
Proof.
  intros a b c d values v E I.
  assert (exists l, values = filter_by_range l 0 1) as [l ->].
  { unfold solve_cubic, solve_quadratic, solve_linear in E.
    destruct (approximately a 0); [| apply some_eq in E; eexists; exact E].
    destruct (approximately b 0); [| apply some_eq in E; eexists; exact E].
    destruct (approximately c 0); [| apply some_eq in E; eexists; exact E].
    destruct (approximately d 0); [discriminate |]. apply some_eq in E. eexists. exact E. }
  eapply filtered_range; [| exact I]. lra.
Qed.

Lemma collisions_range : forall c p q back values s, curve_collisions c p q back = Some values ->
  In s values -> 0 <= s <= 1.
Proof.
  intros c p q back values s E I. rewrite collisions_unfold in E.
  destruct (approximately (ka c p q) 0 && approximately (kb c p q) 0 && approximately (kc c p q) 0
            && approximately (kd c p q) 0) eqn:G.
  - apply some_eq in E. rewrite E in I. apply filter_In in I as [I _].
    destruct I as [<- | []]. destruct back; lra.
  - destruct (solve_cubic _ _ _ _ 0 1) as [l |] eqn:F; [| discriminate]. apply some_eq in E. rewrite E in I.
    apply filter_In in I as [I _]. eapply solutions_range; eassumption.
Qed.

(** *** Polygons *)

Lemma both_some : forall u v w, both u v = Some w ->
  exists a b, u = Some a /\ v = Some b /\ w = a ++ b.
Proof. intros [a |] [b |] w H; try discriminate. injection H as <-. eauto. Qed.

Lemma edges_some : forall polygon c back, exists values, edge_collisions c polygon back = Some values.
Proof.
  induction polygon as [| p [| q rest] IH]; intros c back; cbn [edge_collisions]; try eauto.
  destruct (collisions_some c p q back) as [u ->]. destruct (IH c back) as [v V].
  cbn [edge_collisions] in V. rewrite V. cbn [both]. eauto.
Qed.

Lemma edges_in : forall polygon c back values s, edge_collisions c polygon back = Some values ->
  (In s values <-> exists p q vs, neighbours polygon p q /\ curve_collisions c p q back = Some vs /\ In s vs).
Proof.
  induction polygon as [| p [| q rest] IH]; intros c back values s E.
  - injection E as <-. split; [easy |]. intros (p & q & vs & N & _). inversion N.
  - injection E as <-. split; [easy |]. intros (p' & q' & vs & N & _).
    inversion N; subst. match goal with H : neighbours [] _ _ |- _ => inversion H end.
  - change (both (curve_collisions c p q back) (edge_collisions c (q :: rest) back) = Some values) in E.
    apply both_some in E as (a & b & A & B & ->). rewrite in_app_iff, (IH _ _ _ s B). split.
    + intros [I | (p' & q' & vs & N & V & I)].
      * exists p, q, a. split; [constructor | auto].
      * exists p', q', vs. split; [now constructor | auto].
    + intros (p' & q' & vs & N & V & I). inversion N; subst.
      * left. replace a with vs by congruence. exact I.
      * right. exists p', q', vs. repeat split; assumption.
Qed.

Lemma polygon_in : forall c polygon back, (2 <= List.length polygon)%nat ->
  exists values, polygon_collisions c polygon back = Some values /\
    forall s, In s values <->
      exists p q vs, edge_of polygon p q /\ curve_collisions c p q back = Some vs /\ In s vs.
Proof.
  intros c polygon back L. destruct polygon as [| first [| second rest]]; cbn in L; try lia.
  set (polygon := first :: second :: rest) in *.
  destruct (edges_some polygon c back) as [u U].
  destruct (collisions_some c (last polygon first) first back) as [v V].
  exists (u ++ v). split; [unfold polygon_collisions; unfold polygon at 1; now rewrite U, V |].
  intros s. rewrite in_app_iff, (edges_in _ _ _ _ s U). split.
  - intros [(p & q & vs & N & E & I) | I].
    + exists p, q, vs. split; [now left | auto].
    + exists (last polygon first), first, v. split; [| auto]. right. exists first, (second :: rest). auto.
  - intros (p & q & vs & [N | (f & r & E1 & E2 & E3)] & E & I).
    + left. exists p, q, vs. repeat split; assumption.
    + right. unfold polygon in E1. injection E1 as <- <-. subst p q. congruence.
Qed.

(** *** Splines *)

Lemma bend_in : forall polygon back range curves start, (2 <= List.length polygon)%nat ->
  exists values, bend_collisions curves start polygon back range = Some values /\
    forall s, In s values <->
      exists pre c post t vs, curves = pre ++ c :: post /\
        curve_in_range range (start + total pre) (curve_length c) = true /\
        s = start + total pre + t * curve_length c /\
        polygon_collisions c polygon back = Some vs /\ In t vs.
Proof.
  intros polygon back range. induction curves as [| c rest IH]; intros start L.
  - exists []. split; [reflexivity |]. intros s. split; [easy |].
    intros (pre & c & post & t & vs & E & _). destruct pre; discriminate.
  - destruct (IH (start + curve_length c) L) as (more & M & H).
    destruct (polygon_in c polygon back L) as (vs & V & _).
    exists ((if curve_in_range range start (curve_length c)
             then map (fun s => start + s * curve_length c) vs else []) ++ more).
    split.
    { cbn [bend_collisions]. rewrite M, V. now destruct (curve_in_range _ _ _). }
    intros s. rewrite in_app_iff, H. split.
    + intros [I | (pre & d & post & t & ws & E & G & S & W & I)].
      * destruct (curve_in_range range start (curve_length c)) eqn:G; [| easy].
        apply in_map_iff in I as (t & <- & I). exists [], c, rest, t, vs.
        unfold total. cbn [map sum app]. rewrite Rplus_0_r. auto.
      * exists (c :: pre), d, post, t, ws. unfold total in *. cbn [map sum app].
        rewrite <- Rplus_assoc. split; [now rewrite E | auto].
    + intros (pre & d & post & t & ws & E & G & S & W & I). destruct pre as [| e pre].
      * cbn [app] in E. injection E as <- <-. left. unfold total in G, S. cbn [map sum] in G, S.
        rewrite Rplus_0_r in G, S. rewrite G. apply in_map_iff. exists t. split; [now symmetry |].
        congruence.
      * cbn [app] in E. injection E as <- ->. right. exists pre, d, post, t, ws.
        unfold total in *. cbn [map sum] in G, S. rewrite <- Rplus_assoc in G, S. auto.
Qed.

Lemma walk_start : forall A (g : Curve -> R -> A) c rest, 0 < curve_length c -> walk g c rest 0 = g c 0.
Proof.
  intros A g c rest P. assert (0 / curve_length c = 0) as Z by (field; lra).
  destruct rest as [| d rest]; cbn [walk]; rewrite Z; [reflexivity |].
  destruct (Rlt_dec _ _); [reflexivity | lra].
Qed.

Lemma walk_split : forall pre c post c0 rest points t, c0 :: rest = pre ++ c :: post ->
  joins points (c0 :: rest) -> (forall d, In d (c0 :: rest) -> 0 < curve_length d) -> 0 <= t <= 1 ->
  walk curve_point c0 rest (total pre + t * curve_length c) = curve_point c t.
Proof.
  induction pre as [| e pre IH]; intros c post c0 rest points t E J P T.
  - cbn [app] in E. injection E as -> ->. unfold total. cbn [map sum]. rewrite Rplus_0_l.
    pose proof (P c (or_introl eq_refl)) as L.
    assert (t * curve_length c / curve_length c = t) as Q by (field; lra).
    destruct post as [| d post]; cbn [walk]; rewrite Q; [reflexivity |].
    destruct (Rlt_dec _ _) as [_ | G]; [reflexivity |].
    assert (t = 1) as -> by nra. rewrite Rmult_1_l, Rminus_eq_0, walk_start by (apply P; right; now left).
    inversion J as [| p q more ? ? _ E1 J' E2]. inversion J' as [| ? r more' ? ? E' _ _]. congruence.
  - cbn [app] in E. injection E as -> E. destruct rest as [| d rest]; [destruct pre; discriminate |].
    inversion J as [| p q more ? ? _ E1 J' E2].
    assert (forall f, In f (d :: rest) -> 0 < curve_length f) as P' by (intros f I; apply P; now right).
    specialize (IH c post d rest (q :: more) t E J' P' T). cbn [walk].
    assert (0 <= total pre) as Q.
    { apply total_nonneg. intros f I. apply P'. rewrite E. apply in_app_iff. now left. }
    assert (0 < curve_length c) as Lc. { apply P'. rewrite E. apply in_app_iff. right. now left. }
    unfold total in *. cbn [map sum]. destruct (Rlt_dec _ _); [nra |].
    replace (curve_length e + sum (map curve_length pre) + t * curve_length c - curve_length e)
      with (sum (map curve_length pre) + t * curve_length c) by ring. exact IH.
Qed.

Lemma locate : forall rest c s, (forall d, In d (c :: rest) -> 0 < curve_length d) ->
  0 <= s <= total (c :: rest) ->
  exists pre d post t, c :: rest = pre ++ d :: post /\ 0 <= t <= 1 /\ s = total pre + t * curve_length d.
Proof.
  induction rest as [| e rest IH]; intros c s P R.
  - exists [], c, [], (s / curve_length c). pose proof (P c (or_introl eq_refl)) as L.
    unfold total in *. cbn [map sum app] in *.
    assert (s = s / curve_length c * curve_length c) as S by (field; lra).
    set (t := s / curve_length c) in *. clearbody t. split; [reflexivity |]. split; [nra | lra].
  - pose proof (P c (or_introl eq_refl)) as L. destruct (Rle_dec s (curve_length c)) as [G | G].
    + exists [], c, (e :: rest), (s / curve_length c). unfold total. cbn [map sum app].
      assert (s = s / curve_length c * curve_length c) as S by (field; lra).
      set (t := s / curve_length c) in *. clearbody t. split; [reflexivity |]. split; [nra | lra].
    + destruct (IH e (s - curve_length c)) as (pre & d & post & t & E & T & S).
      * intros d I. apply P. now right.
      * unfold total in *. cbn [map sum] in *. lra.
      * exists (c :: pre), d, post, t. unfold total in *. cbn [map sum app]. split; [now rewrite E |].
        split; [exact T | lra].
Qed.

Lemma total_app : forall u v, total (u ++ v) = total u + total v.
Proof.
  unfold total. induction u as [| c u IH]; intros v; cbn [app map sum]; [lra |]. rewrite IH. lra.
Qed.

Lemma least_some : forall values m, least values = Some m <->
  In m values /\ forall v, In v values -> m <= v.
Proof.
  induction values as [| w values IH]; intros m; cbn [least].
  - split; [discriminate | intros [[] _]].
  - destruct (least values) as [u |] eqn:E.
    + destruct (proj1 (IH u) eq_refl) as [I L]. split.
      * intros H. injection H as <-. split.
        -- unfold Rmin. destruct (Rle_dec w u); [now left | now right].
        -- intros v [<- | V]; [apply Rmin_l |]. eapply Rle_trans; [apply Rmin_r | now apply L].
      * intros [J K]. f_equal. apply Rle_antisym.
        -- destruct J as [<- | J]; [apply Rmin_l |]. eapply Rle_trans; [apply Rmin_r | now apply L].
        -- unfold Rmin. destruct (Rle_dec w u); apply K; [now left | now right].
    + assert (values = []) as ->.
      { destruct values as [| v rest]; [reflexivity |]. cbn [least] in E. destruct (least rest); discriminate. }
      split.
      * intros H. injection H as <-. split; [now left |]. intros v [<- | []]. lra.
      * intros [[<- | []] _]. reflexivity.
Qed.

Lemma greatest_some : forall values m, greatest values = Some m <->
  In m values /\ forall v, In v values -> v <= m.
Proof.
  induction values as [| w values IH]; intros m; cbn [greatest].
  - split; [discriminate | intros [[] _]].
  - destruct (greatest values) as [u |] eqn:E.
    + destruct (proj1 (IH u) eq_refl) as [I L]. split.
      * intros H. injection H as <-. split.
        -- unfold Rmax. destruct (Rle_dec w u); [now right | now left].
        -- intros v [<- | V]; [apply Rmax_l |]. eapply Rle_trans; [now apply L | apply Rmax_r].
      * intros [J K]. f_equal. apply Rle_antisym.
        -- unfold Rmax. destruct (Rle_dec w u); apply K; [now right | now left].
        -- destruct J as [<- | J]; [apply Rmax_l |]. eapply Rle_trans; [now apply L | apply Rmax_r].
    + assert (values = []) as ->.
      { destruct values as [| v rest]; [reflexivity |]. cbn [greatest] in E. destruct (greatest rest); discriminate. }
      split.
      * intros H. injection H as <-. split; [now left |]. intros v [<- | []]. lra.
      * intros [[<- | []] _]. reflexivity.
Qed.

Lemma least_none : forall values, least values = None <-> values = [].
Proof.
  intros [| v rest]; [easy |]. cbn [least]. split; [| discriminate]. destruct (least rest); discriminate.
Qed.
Lemma greatest_none : forall values, greatest values = None <-> values = [].
Proof.
  intros [| v rest]; [easy |]. cbn [greatest]. split; [| discriminate]. destruct (greatest rest); discriminate.
Qed.
