(** Theorems about Catmull-Rom splines (C137 - C140). *)
From Coq Require Import Reals List ZArith Bool Lra Lia Psatz.
From Verif Require Import M_Segment S_Segment P_Segment P_Segment2 M_Solver M_Spline S_Spline P_Spline P_Spline2.
Import ListNotations.
Open Scope R_scope.

(** *** C137: a spline passes through its points *)

(** Every list of points but the empty one gives a spline; no consistency check ever fails. *)
Theorem C137_built : forall raw, (exists sp, spline raw = Some sp) <-> raw <> [].
Proof.
  intros raw. destruct (thinned_exists raw) as [points T]. rewrite (built _ _ T). split.
  - intros [sp E] ->. inversion T; subst. discriminate.
  - intros N. destruct points as [| p [| q [| r rest]]]; eauto.
    inversion T; subst; try easy; match goal with H : thinned (?a :: _) [] |- _ =>
      destruct (thinned_head _ _ _ H); discriminate end.
Qed.

Lemma bend_curves : forall p q r rest, exists c cs,
  curves_of (p :: q :: r :: rest) = c :: cs /\ c = first_curve p q r /\ cs = later_curves p q r rest.
Proof. intros. cbn [curves_of]. eauto. Qed.

Lemma bend_is : forall points cs sp, Some (Bend points cs) = Some sp -> sp = Bend points cs.
Proof. congruence. Qed.

Lemma bend_positive : forall raw p q r rest, thinned raw (p :: q :: r :: rest) ->
  forall c, In c (curves_of (p :: q :: r :: rest)) -> 0 < curve_length c.
Proof.
  intros raw p q r rest T. eapply joins_length; [apply curves_join |].
  eapply thinned_differ. exact T.
Qed.

Lemma segment_norm : forall p q, length (segment p q) = norm (minus q p).
Proof. reflexivity. Qed.

Lemma segment_positive : forall p q, p <> q -> 0 < length (segment p q).
Proof.
  intros p q N. rewrite segment_norm. apply norm_pos. intros E. apply N.
  unfold minus, zero in E. injection E as A B C. apply point_eq; lra.
Qed.

Lemma segment_point : forall p q s, p <> q -> 0 <= s <= length (segment p q) ->
  get_point (segment p q) s true
  = Found (plus p (times (s / length (segment p q)) (minus q p))).
Proof.
  intros p q s N R. pose proof (segment_positive p q N) as L. unfold get_point. cbn [andb].
  destruct (Req_EM_T _ 0); [lra |].
  assert (s = s / length (segment p q) * length (segment p q)) as S by (field; lra).
  set (t := s / length (segment p q)) in *. clearbody t.
  assert (le 0 t = true) as -> by (apply le_true; nra).
  assert (le t 1 = true) as -> by (apply le_true; nra). cbn [andb]. f_equal.
  unfold plus, times, minus, vector_x, vector_y, vector_z. cbn [start_point end_point x y z].
  f_equal; ring.
Qed.

(** There are positions, growing from zero to the length, one for each control point, at which the
    spline is in that point. *)
Theorem C137_through : forall raw points sp, thinned raw points -> spline raw = Some sp ->
  exists positions,
    List.length positions = List.length points /\ growing positions /\
    nth_error positions 0 = Some 0 /\ last positions 0 = spline_length sp /\
    forall k p s, nth_error points k = Some p -> nth_error positions k = Some s ->
      spline_point sp s = Some p.
Proof.
  intros raw points sp T E. rewrite (built _ _ T) in E.
  pose proof (thinned_differ _ _ T) as D.
  destruct points as [| p [| q [| r rest]]]; [discriminate | injection E as <- .. | apply bend_is in E; subst sp].
  - exists [0]. split; [reflexivity |]. split.
    { intros [| i] [| [| j]] s t I A B; cbn in A, B; try lia; try discriminate; destruct i; discriminate. }
    split; [reflexivity |]. split; [reflexivity |].
    intros [| [| k]] u s A B; cbn in A, B; try discriminate. injection A as <-. injection B as <-.
    cbn [spline_point]. rewrite Rabs_R0. assert (le 0 epsilon = true) as ->; [| reflexivity].
    apply le_true. left. apply epsilon_pos.
  - assert (p <> q) as N by (apply D; constructor). pose proof (segment_positive p q N) as L.
    exists [0; length (segment p q)]. split; [reflexivity |]. split.
    { intros [| [| i]] [| [| j]] s t I A B; cbn in A, B; try lia; try discriminate;
        try (destruct i; discriminate); try (destruct j; discriminate).
      injection A as <-. injection B as <-. exact L. }
    split; [reflexivity |]. split; [reflexivity |].
    intros [| [| k]] u s A B; cbn in A, B; try (destruct k; discriminate);
      injection A as <-; injection B as <-; cbn [spline_point]; rewrite segment_point;
      try assumption; try lra; f_equal; apply point_eq; unfold plus, times, minus; cbn [x y z];
      field; lra.
  - pose proof (bend_positive _ _ _ _ _ T) as P. pose proof (curves_join p q r rest) as J.
    destruct (bend_curves p q r rest) as (c & cs & C & _). rewrite C in *.
    exists (stations 0 (c :: cs)). split; [| split; [| split; [| split]]].
    + rewrite stations_length. symmetry. now apply joins_count.
    + now apply stations_growing.
    + reflexivity.
    + rewrite stations_last. apply Rplus_0_l.
    + intros k u s A B. rewrite bend_point by exact P. f_equal.
      rewrite <- (Rminus_0_r s). eapply walk_stations; eassumption.
Qed.

(** *** C138: no jumps *)

(** A spline of three or more points answers at every position, even outside of its range, and is
    without jumps; so is its tangent. *)
Theorem C138_continuous : forall raw points sp, thinned raw points -> (3 <= List.length points)%nat ->
  spline raw = Some sp -> continuous (spline_point sp) /\ continuous (spline_tangent sp).
Proof.
  intros raw points sp T N E. rewrite (built _ _ T) in E.
  destruct points as [| p [| q [| r rest]]]; cbn in N; try lia. apply bend_is in E. subst sp.
  pose proof (bend_positive _ _ _ _ _ T) as P. pose proof (curves_join p q r rest) as J.
  pose proof (tangent_fits p q r rest) as TF.
  destruct (bend_curves p q r rest) as (c & cs & C & C1 & C2). rewrite C in *. rewrite <- C1, <- C2 in TF.
  split.
  - exists (walk (fun d t => x (curve_point d t)) c cs), (walk (fun d t => y (curve_point d t)) c cs),
      (walk (fun d t => z (curve_point d t)) c cs).
    split; [| split; [| split]]; try (apply walk_continuous; [| exact P | eapply (joins_fits _ _ _ _ J)];
      intros d; apply cube_continuous).
    intros s. rewrite bend_point by exact P. f_equal. apply walk_coordinates.
  - exists (walk (fun d t => x (curve_tangent d t)) c cs), (walk (fun d t => y (curve_tangent d t)) c cs),
      (walk (fun d t => z (curve_tangent d t)) c cs).
    split; [| split; [| split]]; try (apply walk_continuous; [| exact P | apply TF];
      intros d; apply square_continuous).
    intros s. rewrite bend_tangent by exact P. f_equal. apply walk_coordinates.
Qed.

(** At an inner control point the direction is that from the point before to the point after. *)
Theorem C138_direction : forall raw points sp, thinned raw points -> (3 <= List.length points)%nat ->
  spline raw = Some sp ->
  exists positions, List.length positions = List.length points /\
    forall k u v w s, nth_error points k = Some u -> nth_error points (S k) = Some v ->
      nth_error points (S (S k)) = Some w -> nth_error positions (S k) = Some s ->
      spline_point sp s = Some v /\ spline_tangent sp s = Some (times (1 / 2) (minus w u)).
Proof.
  intros raw points sp T N E. rewrite (built _ _ T) in E.
  destruct points as [| p [| q [| r rest]]]; cbn in N; try lia. apply bend_is in E. subst sp.
  pose proof (bend_positive _ _ _ _ _ T) as P. pose proof (curves_join p q r rest) as J.
  destruct (bend_curves p q r rest) as (c & cs & C & C1 & C2). rewrite C in *.
  exists (stations 0 (c :: cs)). split; [rewrite stations_length; symmetry; now apply joins_count |].
  intros k u v w s U V W S. rewrite bend_point, bend_tangent by exact P. split.
  - f_equal. rewrite <- (Rminus_0_r s). eapply walk_stations; eassumption.
  - f_equal. change (nth_error (stations (0 + curve_length c) cs) k = Some s) in S.
    assert (forall d, In d cs -> 0 < curve_length d) as P' by (intros d I; apply P; now right).
    destruct (stations_above _ _ _ _ P' S) as [G _].
    destruct cs as [| d cs]; [destruct rest; discriminate |]. cbn [walk].
    destruct (Rlt_dec _ _); [lra |].
    replace (s - curve_length c) with (s - (0 + curve_length c)) by ring.
    rewrite C2 in P', S. eapply walk_tangent_inner; eauto.
Qed.

(** *** C139: lengths *)

(** A curve that is given by its ends and the directions there has them. *)
Theorem C138_hermite : forall start goal u v,
  let c := hermite start goal u v in
  curve_point c 0 = start /\ curve_point c 1 = goal /\ curve_tangent c 0 = u /\ curve_tangent c 1 = v.
Proof.
  intros [] [] [] [] c. subst c. unfold curve_point, curve_tangent. cbn.
  repeat split; f_equal; ring.
Qed.

(** A spline of at least two different points has a positive length. *)
Theorem C139_length : forall raw sp, spline raw = Some sp ->
  (0 < spline_length sp <-> exists p q, In p raw /\ In q raw /\ p <> q).
Proof.
  intros raw sp E. destruct (thinned_exists raw) as [points T]. rewrite (built _ _ T) in E.
  assert (forall raw points, thinned raw points -> forall u, In u raw <-> In u points) as M.
  { clear. induction 1 as [| p | p raw points _ IH | p q raw points _ _ IH]; intros u; try tauto.
    - rewrite <- IH. cbn. tauto.
    - cbn [In]. rewrite <- IH. cbn. tauto. }
  specialize (M _ _ T). pose proof (thinned_differ _ _ T) as D.
  destruct points as [| p [| q [| r rest]]]; [discriminate | injection E as <- .. | apply bend_is in E; subst sp].
  - cbn [spline_length]. split; [lra |]. intros (a & b & A & B & N). apply M in A. apply M in B.
    destruct A as [<- | []]. destruct B as [<- | []]. now elim N.
  - assert (p <> q) as N by (apply D; constructor). split; [| intros _; now apply segment_positive].
    intros _. exists p, q. rewrite !M. cbn. tauto.
  - assert (p <> q) as N by (apply D; constructor).
    pose proof (bend_positive _ _ _ _ _ T) as P. split.
    + intros _. exists p, q. rewrite !M. cbn. tauto.
    + intros _. cbn [spline_length]. destruct (bend_curves p q r rest) as (c & cs & C & _). rewrite C in *.
      cbn [map sum]. pose proof (P c (or_introl eq_refl)).
      pose proof (total_nonneg cs (fun d I => P d (or_intror I))) as Q. unfold total in Q. lra.
Qed.

(** On a straight road with evenly spaced points, positions are distances. *)
Theorem C139_even : forall p d n sp, d <> zero -> (2 <= n)%nat -> spline (evenly p d n) = Some sp ->
  spline_length sp = INR (n - 1) * norm d /\
  forall s, 0 <= s <= spline_length sp ->
    spline_point sp s = Some (plus p (times (s / norm d) d)) /\
    spline_tangent sp s = Some d.
Proof.
  intros p d n sp N G E. pose proof (evenly_thinned n p d N) as T. rewrite (built _ _ T) in E.
  destruct n as [| [| [| n]]]; try lia.
  - cbn [evenly] in E. injection E as <-. cbn [spline_length Nat.sub].
    assert (length (segment p (plus p d)) = norm d) as L.
    { unfold length, norm, vector_x, vector_y, vector_z, plus. cbn [start_point end_point x y z].
      f_equal. ring. }
    rewrite L. split; [cbn; ring |]. intros s R. cbn [spline_point spline_tangent].
    rewrite segment_point by (try apply plus_differs; rewrite ?L; assumption). rewrite L. split.
    + f_equal. f_equal. f_equal. apply point_eq; unfold minus, plus; cbn [x y z]; ring.
    + destruct R as [R1 R2]. apply le_true in R1. apply le_true in R2. rewrite R1, R2. cbn [andb].
      f_equal. apply point_eq; unfold vector_x, vector_y, vector_z, plus; cbn [start_point end_point x y z]; ring.
  - pose proof (curves_run n p d) as H.
    assert (forall c, In c (curves_of (evenly p d (S (S (S n))))) -> 0 < curve_length c) as P.
    { cbn [evenly] in T |- *. exact (bend_positive _ _ _ _ _ T). }
    pose proof (curves_join p (plus p d) (plus (plus p d) d) (evenly (plus (plus (plus p d) d) d) d n)) as J.
    apply joins_count in J.
    change (p :: plus p d :: plus (plus p d) d :: evenly (plus (plus (plus p d) d) d) d n)
      with (evenly p d (S (S (S n)))) in J. rewrite evenly_length in J.
    assert (sp = Bend (evenly p d (S (S (S n)))) (curves_of (evenly p d (S (S (S n)))))) as ->
      by (cbn [evenly] in E |- *; congruence).
    set (cs := curves_of (evenly p d (S (S (S n))))) in *.
    destruct cs as [| c rest]; [cbn in J; discriminate |].
    cbn [spline_length]. fold (total (c :: rest)). split.
    + rewrite (run_length _ _ _ H). f_equal. f_equal. lia.
    + intros s _. rewrite bend_point, bend_tangent by exact P.
      rewrite (run_walk rest c p d s N H), (run_tangent rest c p d s H). split; reflexivity.
Qed.

(** *** C140: uneven points *)

(** When the second step is more than three times as long as the first, in the same direction, the
    spline begins backwards: it leaves the road behind its start, heading the wrong way. *)
Theorem C140_backwards_refuted : forall p d k sp, d <> zero -> 3 < k ->
  spline [p; plus p d; plus p (times (1 + k) d)] = Some sp ->
  exists s1, 0 < s1 /\ forall s, 0 <= s < s1 -> exists u v,
    spline_point sp s = Some (plus p (times u d)) /\ spline_tangent sp s = Some (times v d) /\
    v < 0 /\ (0 < s -> u < 0).
Proof.
  intros p d k sp N K E. assert (k <> 0) as K0 by lra.
  pose proof (uneven_thinned p d k N K0) as T. unfold uneven in T. rewrite (built _ _ T) in E. apply bend_is in E. subst sp.
  pose proof (bend_positive _ _ _ _ _ T) as P. cbn [curves_of later_curves] in *.
  set (c := first_curve p (plus p d) (plus p (times (1 + k) d))) in *.
  set (e := last_curve p (plus p d) (plus p (times (1 + k) d))) in *.
  pose proof (P c (or_introl eq_refl)) as L.
  set (t1 := (k - 3) / (2 * (k - 1))).
  assert (0 < t1) as T1 by (unfold t1; apply Rdiv_lt_0_compat; lra).
  assert (2 * (k - 1) * t1 = k - 3) as T2 by (unfold t1; field; lra).
  exists (t1 * curve_length c). split; [nra |]. intros s R.
  rewrite bend_point, bend_tangent by exact P. cbn [walk].
  assert (t1 < 1) as T3 by nra.
  destruct (Rlt_dec s (curve_length c)); [| nra].
  set (t := s / curve_length c). assert (s = t * curve_length c) as S by (unfold t; field; lra).
  clearbody t.
  exists (t * ((k - 1) / 2 * t + (3 - k) / 2)), ((k - 1) * t + (3 - k) / 2).
  unfold c. rewrite uneven_point, uneven_tangent. fold c. split; [reflexivity |]. split; [reflexivity |].
  assert (t < t1) as T4 by nra. assert (0 <= t) as T5 by nra. split; [nra |]. intros S0.
  assert (0 < t) as T6 by nra. assert ((k - 1) / 2 * t + (3 - k) / 2 < 0) by nra. nra.
Qed.

(** Positions are not distances: half-way along the first metre of a straight road the spline has
    only gone 375 mm, and reports 497 mm. *)
Theorem C140_distance_refuted : exists raw sp s p,
  (forall u, In u raw -> y u = 0 /\ z u = 0) /\ spline raw = Some sp /\
  0 < s < spline_length sp /\ nth_error raw 0 = Some zero /\
  spline_point sp s = Some p /\ norm p < s - 1 / 10.
Proof.
  assert (point 1 0 0 <> zero) as N by (intros E; injection E; lra).
  assert (2 <> 0) as K0 by lra.
  pose proof (uneven_thinned zero (point 1 0 0) 2 N K0) as T. unfold uneven in T.
  pose proof (bend_positive _ _ _ _ _ T) as P. cbn [curves_of later_curves] in *.
  set (c := first_curve zero (plus zero (point 1 0 0)) (plus zero (times (1 + 2) (point 1 0 0)))) in *.
  set (e := last_curve zero (plus zero (point 1 0 0)) (plus zero (times (1 + 2) (point 1 0 0)))) in *.
  assert (curve_length c = 995 / 1000) as L.
  { rewrite growing_length; unfold c, first_curve, first_a, first_b, first_c, plus, times, zero;
      cbn [x y z ax bx cx dx ay by_ cy dy az bz cz dz]; lra. }
  eexists. eexists. exists (995 / 2000), (point (3 / 8) 0 0). split; [| split; [| split; [| split; [| split]]]].
  - intros u I. instantiate (1 := [zero; plus zero (point 1 0 0); plus zero (times (1 + 2) (point 1 0 0))]) in I.
    cbn [In] in I. destruct I as [<- | [<- | [<- | []]]]; unfold plus, times, zero; cbn [y z]; split; ring.
  - rewrite (built _ _ T). reflexivity.
  - cbn [spline_length curves_of later_curves]. fold c e. cbn [map sum]. rewrite L.
    pose proof (P e (or_intror (or_introl eq_refl))). lra.
  - reflexivity.
  - cbn [curves_of later_curves]. fold c e. rewrite bend_point by exact P. cbn [walk]. rewrite L.
    destruct (Rlt_dec _ _); [| lra]. f_equal. unfold c. rewrite uneven_point.
    apply point_eq; unfold plus, times, zero; cbn [x y z]; field.
  - unfold norm. cbn [x y z]. replace (3 / 8 * (3 / 8) + 0 * 0 + 0 * 0) with ((3 / 8) * (3 / 8)) by ring.
    rewrite sqrt_square; lra.
Qed.

(** *** Examples *)

(** A bend of four points with a repetition meets the hypotheses of C137 and C138. *)
Example bend_met :
  let a := point 0 0 0 in let b := point 1 0 0 in let c := point 2 1 0 in let d := point 2 2 0 in
  thinned [a; b; b; c; d] [a; b; c; d] /\ exists sp, spline [a; b; b; c; d] = Some sp.
Proof.
  cbv zeta. split.
  - constructor; [intros E; injection E; lra |]. apply thin_drop.
    constructor; [intros E; injection E; lra |].
    constructor; [intros E; injection E; lra |]. constructor.
  - apply C137_built. discriminate.
Qed.

Example bend_through :
  let a := point 0 0 0 in let b := point 1 0 0 in let c := point 2 1 0 in let d := point 2 2 0 in
  exists sp s, spline [a; b; b; c; d] = Some sp /\ spline_point sp s = Some c /\
               spline_tangent sp s = Some (point (1 / 2) 1 0).
Proof.
  cbv zeta. destruct bend_met as [T [sp E]]. cbv zeta in T, E.
  destruct (C138_direction _ _ _ T ltac:(cbn; lia) E) as (positions & L & H).
  destruct (nth_error positions 2) as [s |] eqn:S; [| apply nth_error_None in S; cbn in L; lia].
  exists sp, s. split; [exact E |].
  destruct (H 1%nat _ _ _ s eq_refl eq_refl eq_refl S) as [A B]. split; [exact A |].
  rewrite B. f_equal. apply point_eq; unfold times, minus; cbn [x y z]; field.
Qed.

Example backwards_met : exists sp,
  spline [zero; plus zero (point 1 0 0); plus zero (times (1 + 9) (point 1 0 0))] = Some sp.
Proof. apply C137_built. discriminate. Qed.

Print Assumptions C137_built.
Print Assumptions C137_through.
Print Assumptions C138_continuous.
Print Assumptions C138_direction.
Print Assumptions C138_hermite.
Print Assumptions C139_length.
Print Assumptions C139_even.
Print Assumptions C140_backwards_refuted.
Print Assumptions C140_distance_refuted.
