(** Splines: construction, lengths, lookup, points and tangents *)
From Coq Require Import Reals List ZArith Bool Lra Lia Psatz.
From Verif Require Import M_Segment S_Segment P_Segment P_Segment2 M_Solver M_Spline S_Spline.
Import ListNotations.
Open Scope R_scope.

Lemma point_eq : forall p q, x p = x q -> y p = y q -> z p = z q -> p = q.
Proof. intros [a b c] [d e f]. cbn. congruence. Qed.

(** *** Construction *)

Lemma thinned_unique : forall raw points, thinned raw points -> unique raw = points.
Proof.
  induction 1 as [| p | p raw points _ IH | p q raw points N _ IH]; try reflexivity.
  - cbn [unique] in *. replace (same p p) with true; [exact IH |]. symmetry. now apply same_eq.
  - cbn [unique]. apply same_false in N. rewrite N. cbn [unique] in IH. now rewrite IH.
Qed.

Lemma thinned_exists : forall raw, exists points, thinned raw points.
Proof.
  induction raw as [| p [| q raw] IH].
  - exists []. constructor.
  - exists [p]. constructor.
  - destruct IH as [points H]. destruct (point_dec p q) as [-> | N].
    + exists points. now constructor.
    + exists (p :: points). now constructor.
Qed.

Lemma thinned_head : forall p raw points, thinned (p :: raw) points -> exists rest, points = p :: rest.
Proof.
  intros p raw. revert p. induction raw as [| q raw IH]; intros p points H; inversion H; subst.
  - eauto.
  - eapply IH. eassumption.
  - eauto.
Qed.

Lemma thinned_differ : forall raw points, thinned raw points ->
  forall a b, neighbours points a b -> a <> b.
Proof.
  induction 1 as [| p | p raw points _ IH | p q raw points N H IH]; intros a b M.
  - inversion M.
  - inversion M; subst. match goal with H : neighbours [] _ _ |- _ => inversion H end.
  - now apply IH.
  - destruct (thinned_head _ _ _ H) as [rest ->]. inversion M; subst; [exact N |]. now apply IH.
Qed.

(** Curves that join points *)
Inductive joins : list Point -> list Curve -> Prop :=
| join_end p : joins [p] []
| join_more p q rest c cs : curve_point c 0 = p -> curve_point c 1 = q -> joins (q :: rest) cs ->
    joins (p :: q :: rest) (c :: cs).

Ltac ends := apply point_eq; unfold curve_point, first_curve, last_curve, middle_curve,
  first_a, first_b, first_c, first_d, last_a, last_b, last_c, last_d,
  middle_a, middle_b, middle_c, middle_d;
  cbn [x y z ax bx cx dx ay by_ cy dy az bz cz dz]; field.

Lemma first_ends : forall p q r,
  curve_point (first_curve p q r) 0 = p /\ curve_point (first_curve p q r) 1 = q.
Proof. intros p q r. split; ends. Qed.
Lemma last_ends : forall p q r,
  curve_point (last_curve p q r) 0 = q /\ curve_point (last_curve p q r) 1 = r.
Proof. intros p q r. split; ends. Qed.
Lemma middle_ends : forall p q r s,
  curve_point (middle_curve p q r s) 0 = q /\ curve_point (middle_curve p q r s) 1 = r.
Proof. intros p q r s. split; ends. Qed.

Lemma later_joins : forall rest p q r, joins (q :: r :: rest) (later_curves p q r rest).
Proof.
  induction rest as [| s rest IH]; intros p q r; cbn [later_curves]; constructor;
    try apply last_ends; try apply middle_ends; try apply IH; constructor.
Qed.

Lemma curves_join : forall p q r rest, joins (p :: q :: r :: rest) (curves_of (p :: q :: r :: rest)).
Proof. intros p q r rest. constructor; [apply first_ends .. | apply later_joins]. Qed.

Lemma equals_refl : forall p, equals p p = true.
Proof.
  intros p. unfold equals. rewrite !Rminus_eq_0, Rabs_R0.
  assert (le 0 float_epsilon = true) as ->; [| reflexivity].
  apply le_true. left. unfold float_epsilon. apply Rinv_0_lt_compat, pow_lt. lra.
Qed.

Lemma joins_checked : forall curves points, joins points curves -> check_connection points curves = true.
Proof.
  intros curves points. induction 1 as [p | p q rest c cs A B _ IH]; [reflexivity |].
  change (equals p (curve_point c 0) && equals q (curve_point c 1) && check_connection (q :: rest) cs = true).
  now rewrite A, B, !equals_refl.
Qed.

Lemma built : forall raw points, thinned raw points ->
  spline raw = match points with
               | [] => None
               | [p] => Some (Dot p)
               | [p; q] => Some (Line (segment p q))
               | _ => Some (Bend points (curves_of points))
               end.
Proof.
  intros raw points T. unfold spline. rewrite (thinned_unique _ _ T).
  destruct points as [| p [| q [| r rest]]]; try reflexivity.
  now rewrite (joins_checked _ _ (curves_join p q r rest)).
Qed.

(** *** Lengths *)

Lemma length_term_nonneg : forall c s, 0 <= length_term c s.
Proof. intros. apply sqrt_pos. Qed.

Lemma length_sum_nonneg : forall c d n, 0 <= d -> 0 <= length_sum c d n.
Proof.
  intros c d n D. induction n as [| n IH]; cbn [length_sum]; [lra |].
  pose proof (length_term_nonneg c (INR n * d)). nra.
Qed.

Lemma length_sum_zero : forall c d n, 0 < d -> length_sum c d n = 0 ->
  forall j, (j < n)%nat -> length_term c (INR j * d) = 0.
Proof.
  intros c d n D. induction n as [| n IH]; intros Z j J; [lia |]. cbn [length_sum] in Z.
  assert (0 <= d) as D' by lra.
  pose proof (length_term_nonneg c (INR n * d)). pose proof (length_sum_nonneg c d n D').
  assert (length_sum c d n = 0) as Z1 by nra.
  assert (length_term c (INR n * d) * d = 0) as Z2 by nra.
  destruct (Nat.eq_dec j n) as [-> | N]; [| apply IH; [exact Z1 | lia]].
  apply Rmult_integral in Z2. lra.
Qed.

Lemma term_zero : forall c s, length_term c s = 0 -> curve_tangent c s = zero.
Proof.
  intros c s H. unfold length_term in H.
  set (u := (3 * s * s) * ax c + 2 * s * bx c + cx c) in *.
  set (v := (3 * s * s) * ay c + 2 * s * by_ c + cy c) in *.
  set (w := (3 * s * s) * az c + 2 * s * bz c + cz c) in *.
  apply sqrt_eq_0 in H; [| nra].
  apply point_eq; unfold curve_tangent, zero; cbn [x y z].
  - replace (3 * ax c * s * s + 2 * bx c * s + cx c) with u by (unfold u; ring). nra.
  - replace (3 * ay c * s * s + 2 * by_ c * s + cy c) with v by (unfold v; ring). nra.
  - replace (3 * az c * s * s + 2 * bz c * s + cz c) with w by (unfold w; ring). nra.
Qed.

Lemma length_pos : forall c, curve_point c 0 <> curve_point c 1 -> 0 < curve_length c.
Proof.
  intros c N. pose proof (length_sum_nonneg c (1 / 100) 100 ltac:(lra)) as P.
  fold (curve_length c) in P. destruct P as [P | P]; [exact P |]. exfalso. apply N.
  assert (length_sum c (1 / 100) 100 = 0) as Z by (unfold curve_length in P; lra).
  pose proof (length_sum_zero c (1 / 100) 100 ltac:(lra) Z) as H.
  pose proof (term_zero _ _ (H 0%nat ltac:(lia))) as T0.
  pose proof (term_zero _ _ (H 1%nat ltac:(lia))) as T1.
  pose proof (term_zero _ _ (H 2%nat ltac:(lia))) as T2.
  replace (INR 0 * (1 / 100)) with 0 in T0 by (cbn; lra).
  replace (INR 1 * (1 / 100)) with (1 / 100) in T1 by (cbn; lra).
  replace (INR 2 * (1 / 100)) with (1 / 50) in T2 by (cbn; lra).
  unfold curve_tangent, zero in *. injection T0 as A0 B0 C0. injection T1 as A1 B1 C1.
  injection T2 as A2 B2 C2. clear - A0 A1 A2 B0 B1 B2 C0 C1 C2.
  apply point_eq; unfold curve_point; cbn [x y z]; lra.
Qed.

Lemma joins_length : forall curves points, joins points curves ->
  (forall a b, neighbours points a b -> a <> b) -> forall c, In c curves -> 0 < curve_length c.
Proof.
  intros curves points. induction 1 as [p | p q rest c cs A B _ IH]; intros D c' I; [easy |].
  destruct I as [<- | I].
  - apply length_pos. rewrite A, B. apply D. constructor.
  - apply IH; [| exact I]. intros a b N. apply D. now constructor.
Qed.

(** *** Lookup *)

(** The sum of a hundred terms is never to be unfolded from here on. *)
Opaque curve_length.

(** The value on the curve that [s] leads to *)
Fixpoint walk {A} (g : Curve -> R -> A) (c : Curve) (rest : list Curve) (s : R) : A :=
  match rest with
  | [] => g c (s / curve_length c)
  | d :: rest' => if Rlt_dec s (curve_length c) then g c (s / curve_length c)
                  else walk g d rest' (s - curve_length c)
  end.

Definition total (curves : list Curve) : R := sum (map curve_length curves).

Lemma total_nonneg : forall cs, (forall c, In c cs -> 0 < curve_length c) -> 0 <= total cs.
Proof.
  unfold total. induction cs as [| c cs IH]; intros P; cbn [map sum]; [lra |].
  pose proof (P c (or_introl eq_refl)). pose proof (IH (fun d I => P d (or_intror I))). lra.
Qed.

Lemma find_walk : forall A (g : Curve -> R -> A) rest c i prev s,
  (forall d, In d (c :: rest) -> 0 < curve_length d) ->
  prev <= s -> s < prev + total (c :: rest) ->
  exists k t d, find_curve (c :: rest) i prev s = Some ((i + k)%nat, t) /\
    nth_error (c :: rest) k = Some d /\ walk g c rest (s - prev) = g d (t / curve_length d).
Proof.
  intros A g. induction rest as [| d rest IH]; intros c i prev s P L H; cbn [find_curve].
  - unfold total in H. cbn [map sum] in H. apply le_true in L. rewrite L.
    assert (lt s (prev + curve_length c) = true) as -> by (apply lt_true; lra). cbn [andb].
    exists 0%nat, (s - prev), c. rewrite Nat.add_0_r. repeat split.
  - pose proof L as L'. apply le_true in L'. rewrite L'.
    destruct (lt s (prev + curve_length c)) eqn:E; cbn [andb].
    + apply lt_true in E. exists 0%nat, (s - prev), c. rewrite Nat.add_0_r. split; [reflexivity |].
      split; [reflexivity |]. cbn [walk]. destruct (Rlt_dec _ _); [reflexivity | lra].
    + apply lt_false in E.
      destruct (IH d (S i) (prev + curve_length c) s) as (k & t & e & F & N & W).
      * intros f I. apply P. now right.
      * exact E.
      * unfold total in *. cbn [map sum] in *. lra.
      * exists (S k), t, e. split; [| split].
        -- cbn [find_curve] in F. rewrite F. do 2 f_equal. lia.
        -- exact N.
        -- cbn [walk]. destruct (Rlt_dec _ _); [lra |].
           replace (s - prev - curve_length c) with (s - (prev + curve_length c)) by ring. exact W.
Qed.

Lemma rev_last : forall A (l : list A) a, exists b rest, rev (a :: l) = b :: rest /\
  nth_error (a :: l) (List.length l) = Some b /\ b = last (a :: l) a.
Proof.
  intros A l a. destruct (exists_last (l := a :: l) ltac:(discriminate)) as (m & b & E).
  exists b, (rev m). rewrite E, rev_app_distr. split; [reflexivity |]. split.
  - assert (List.length l = List.length m) as ->.
    { pose proof (f_equal (@List.length A) E) as L. rewrite app_length in L. cbn in L. lia. }
    rewrite nth_error_app2 by lia. now rewrite Nat.sub_diag.
  - now rewrite last_last.
Qed.

Lemma walk_beyond : forall A (g : Curve -> R -> A) rest c s,
  (forall d, In d (c :: rest) -> 0 < curve_length d) -> total (c :: rest) <= s ->
  let d := last (c :: rest) c in
  walk g c rest s = g d ((s - (total (c :: rest) - curve_length d)) / curve_length d).
Proof.
  intros A g. induction rest as [| d rest IH]; intros c s P L; cbv zeta.
  - cbn [last walk]. f_equal. f_equal. unfold total. cbn [map sum]. ring.
  - cbn [walk].
    assert (0 <= total (d :: rest)) as Q by (apply total_nonneg; intros e I; apply P; now right).
    unfold total in L. cbn [map sum] in L. unfold total in Q. cbn [map sum] in Q.
    destruct (Rlt_dec _ _); [lra |].
    rewrite IH; [| intros e I; apply P; now right | unfold total; cbn [map sum]; lra].
    assert (last (c :: d :: rest) c = last (d :: rest) d) as ->.
    { cbn [last]. destruct rest; [reflexivity |]. clear. revert c0. induction rest as [| e rest IH].
      - reflexivity.
      - intros c1. cbn [last] in *. apply (IH e). }
    f_equal. f_equal. unfold total. cbn [map sum]. ring.
Qed.

Lemma lookup_walk : forall A (g : Curve -> R -> A) c rest s,
  (forall d, In d (c :: rest) -> 0 < curve_length d) ->
  exists i t d, curve_index_and_s (c :: rest) s = Some (i, t) /\
    nth_error (c :: rest) i = Some d /\ walk g c rest s = g d (t / curve_length d).
Proof.
  intros A g c rest s P. unfold curve_index_and_s. fold (total (c :: rest)).
  destruct (lt s 0) eqn:E.
  - apply lt_true in E. exists 0%nat, s, c. split; [reflexivity |]. split; [reflexivity |].
    destruct rest as [| d rest]; [reflexivity |]. cbn [walk].
    pose proof (P c (or_introl eq_refl)). destruct (Rlt_dec _ _); [reflexivity | lra].
  - apply lt_false in E. destruct (le (total (c :: rest)) s) eqn:F.
    + apply le_true in F. destruct (rev_last _ rest c) as (b & more & R1 & R2 & R3). rewrite R1.
      do 3 eexists. split; [reflexivity |]. split; [exact R2 |].
      rewrite walk_beyond by assumption. now rewrite R3.
    + apply le_false in F. destruct (find_walk A g rest c 0 0 s P E) as (k & t & d & G & N & W).
      * lra.
      * exists k, t, d. rewrite Rminus_0_r in W. cbn [Nat.add] in G. auto.
Qed.

Lemma bend_point : forall points c rest s,
  (forall d, In d (c :: rest) -> 0 < curve_length d) ->
  spline_point (Bend points (c :: rest)) s = Some (walk curve_point c rest s).
Proof.
  intros points c rest s P. unfold spline_point.
  destruct (lookup_walk _ curve_point c rest s P) as (i & t & d & A & B & C). rewrite A, B, C.
  unfold curve_point_at. assert (0 < curve_length d) by (apply P; eapply nth_error_In; exact B).
  destruct (Req_EM_T _ _); [lra | reflexivity].
Qed.

Lemma bend_tangent : forall points c rest s,
  (forall d, In d (c :: rest) -> 0 < curve_length d) ->
  spline_tangent (Bend points (c :: rest)) s = Some (walk curve_tangent c rest s).
Proof.
  intros points c rest s P. unfold spline_tangent.
  destruct (lookup_walk _ curve_tangent c rest s P) as (i & t & d & A & B & C). rewrite A, B, C.
  unfold curve_tangent_at. assert (0 < curve_length d) by (apply P; eapply nth_error_In; exact B).
  destruct (Req_EM_T _ _); [lra | reflexivity].
Qed.

(** *** Stations: where the control points are *)

Fixpoint stations (start : R) (curves : list Curve) : list R :=
  match curves with
  | [] => [start]
  | c :: rest => start :: stations (start + curve_length c) rest
  end.

Lemma stations_length : forall cs a, List.length (stations a cs) = S (List.length cs).
Proof. induction cs as [| c cs IH]; intros a; cbn; [reflexivity |]. now rewrite IH. Qed.

Lemma stations_last : forall cs a b, last (stations a cs) b = a + total cs.
Proof.
  induction cs as [| c cs IH]; intros a b; cbn [stations].
  - unfold total. cbn. lra.
  - specialize (IH (a + curve_length c) b). unfold total in *. cbn [map sum].
    destruct cs as [| d cs]; cbn [stations last] in *; [lra |]. rewrite IH. lra.
Qed.

Lemma stations_above : forall cs a k s, (forall c, In c cs -> 0 < curve_length c) ->
  nth_error (stations a cs) k = Some s -> a <= s /\ (k <> 0%nat -> a < s).
Proof.
  induction cs as [| c cs IH]; intros a k s P H; cbn [stations] in H.
  - destruct k as [| [| k]]; cbn in H; try discriminate. injection H as <-. split; [lra | easy].
  - destruct k as [| k]; cbn in H.
    + injection H as <-. split; [lra | easy].
    + pose proof (P c (or_introl eq_refl)).
      destruct (IH (a + curve_length c) k s) as [L _]; [intros; apply P; now right | exact H |].
      split; [lra | intros _; lra].
Qed.

Lemma stations_growing : forall cs a, (forall c, In c cs -> 0 < curve_length c) ->
  growing (stations a cs).
Proof.
  induction cs as [| c cs IH]; intros a P i j s t I A B.
  - destruct i, j; cbn in A, B; try lia; destruct j; discriminate.
  - destruct j as [| j]; [lia |]. destruct i as [| i].
    + cbn in A. injection A as <-. eapply stations_above; [exact P | exact B | easy].
    + cbn [stations nth_error] in A, B.
      assert (forall d, In d cs -> 0 < curve_length d) as P' by (intros d D; apply P; now right).
      exact (IH _ P' i j s t ltac:(lia) A B).
Qed.

Lemma walk_stations : forall points c rest, joins points (c :: rest) ->
  (forall d, In d (c :: rest) -> 0 < curve_length d) ->
  forall a k p s, nth_error points k = Some p -> nth_error (stations a (c :: rest)) k = Some s ->
  walk curve_point c rest (s - a) = p.
Proof.
  intros points c rest. revert points c. induction rest as [| d rest IH];
    intros points c J P a k p s A B.
  - inversion J as [| p0 p1 more ? ? E0 E1 J' E2]. inversion J'. subst. clear J J'. pose proof (P c (or_introl eq_refl)) as L. cbn [walk].
    cbn [stations] in B. destruct k as [| [| k]]; cbn in A, B.
    + injection A as <-. injection B as <-. f_equal. field. lra.
    + injection A as <-. injection B as <-. f_equal. field. lra.
    + destruct k; discriminate.
  - inversion J as [| p0 p1 more ? ? E0 E1 J' E2]. subst points. clear J. rename J' into J.
    pose proof (P c (or_introl eq_refl)) as L. cbn [walk].
    assert (forall e, In e (d :: rest) -> 0 < curve_length e) as P' by (intros e I; apply P; now right).
    destruct k as [| k].
    + cbn [nth_error stations] in A, B. injection A as <-. injection B as <-.
      destruct (Rlt_dec _ _); [| lra]. rewrite <- E0. f_equal. field. lra.
    + change (nth_error (p1 :: more) k = Some p) in A.
      change (nth_error (stations (a + curve_length c) (d :: rest)) k = Some s) in B.
      destruct (stations_above _ _ _ _ P' B) as [G _].
      destruct (Rlt_dec _ _); [lra |].
      replace (s - a - curve_length c) with (s - (a + curve_length c)) by ring.
      eapply IH; eassumption.
Qed.

Lemma joins_count : forall curves points, joins points curves ->
  List.length points = S (List.length curves).
Proof. induction 1 as [p | p q rest c cs _ _ _ IH]; cbn in *; congruence. Qed.

(** *** Continuity *)

Lemma glue : forall (f g : R -> R) a, continuity f -> continuity g -> f a = g a ->
  continuity (fun s => if Rlt_dec s a then f s else g s).
Proof.
  intros f g a F G E s0. unfold continuity_pt, continue_in, limit1_in, limit_in.
  intros eps H. destruct (F s0 eps H) as (d1 & D1 & A). destruct (G s0 eps H) as (d2 & D2 & B).
  unfold dist in *. cbn in *. unfold R_dist in *.
  destruct (Rtotal_order s0 a) as [L | [L | L]].
  - exists (Rmin d1 (a - s0)). split; [apply Rmin_glb_lt; lra |].
    intros s [D C]. pose proof (Rmin_l d1 (a - s0)). pose proof (Rmin_r d1 (a - s0)).
    destruct (Rlt_dec s0 a); [| lra].
    assert (s < a) by (unfold Rabs in C; destruct (Rcase_abs (s - s0)); lra).
    destruct (Rlt_dec s a); [| lra]. apply A. split; [exact D | lra].
  - subst a. exists (Rmin d1 d2). split; [apply Rmin_glb_lt; lra |].
    intros s [D C]. pose proof (Rmin_l d1 d2). pose proof (Rmin_r d1 d2).
    destruct (Rlt_dec s0 s0); [lra |]. destruct (Rlt_dec s s0).
    + rewrite <- E. apply A. split; [exact D | lra].
    + apply B. split; [exact D | lra].
  - exists (Rmin d2 (s0 - a)). split; [apply Rmin_glb_lt; lra |].
    intros s [D C]. pose proof (Rmin_l d2 (s0 - a)). pose proof (Rmin_r d2 (s0 - a)).
    destruct (Rlt_dec s0 a); [lra |].
    assert (a < s) by (unfold Rabs in C; destruct (Rcase_abs (s - s0)); lra).
    destruct (Rlt_dec s a); [lra |]. apply B. split; [exact D | lra].
Qed.

(** Curves whose values under [g] agree where one ends and the next begins *)
Fixpoint fits (g : Curve -> R -> R) (c : Curve) (rest : list Curve) : Prop :=
  match rest with
  | [] => True
  | d :: rest' => g c 1 = g d 0 /\ fits g d rest'
  end.

Lemma walk_continuous : forall (g : Curve -> R -> R), (forall c, continuity (g c)) ->
  forall rest c, (forall d, In d (c :: rest) -> 0 < curve_length d) -> fits g c rest ->
  continuity (walk g c rest).
Proof.
  intros g G rest.
  assert (forall c, 0 < curve_length c -> continuity (fun s => g c (s / curve_length c))) as K.
  { intros c P. apply (continuity_comp (fun s => s / curve_length c) (g c)); [| apply G].
    intros s. unfold Rdiv. apply continuity_pt_mult; [apply derivable_continuous, derivable_id |].
    apply continuity_const. intros u v. reflexivity. }
  induction rest as [| d rest IH]; intros c P F.
  - apply K. apply P. now left.
  - pose proof (P c (or_introl eq_refl)) as L. destruct F as [E F].
    assert (forall e, In e (d :: rest) -> 0 < curve_length e) as P' by (intros e I; apply P; now right).
    change (continuity (fun s => if Rlt_dec s (curve_length c) then g c (s / curve_length c)
                                 else walk g d rest (s - curve_length c))).
    apply (glue (fun s => g c (s / curve_length c)) (fun s => walk g d rest (s - curve_length c))).
    + now apply K.
    + apply (continuity_comp (fun s => s - curve_length c) (walk g d rest)); [| now apply IH].
      intros s. apply continuity_pt_minus; [apply derivable_continuous, derivable_id |].
      apply continuity_const. intros u v. reflexivity.
    + rewrite Rminus_eq_0. replace (curve_length c / curve_length c) with 1 by (field; lra).
      rewrite E. destruct rest as [| e rest]; cbn [walk].
      * f_equal. pose proof (P' d (or_introl eq_refl)). field. lra.
      * pose proof (P' d (or_introl eq_refl)). destruct (Rlt_dec _ _); [| lra]. f_equal. field. lra.
Qed.

Lemma walk_coordinates : forall (g : Curve -> R -> Point) rest c s,
  walk g c rest s = point (walk (fun d t => x (g d t)) c rest s)
                          (walk (fun d t => y (g d t)) c rest s)
                          (walk (fun d t => z (g d t)) c rest s).
Proof.
  intros g. induction rest as [| d rest IH]; intros c s; cbn [walk].
  - now destruct (g c (s / curve_length c)).
  - destruct (Rlt_dec _ _); [now destruct (g c (s / curve_length c)) | apply IH].
Qed.

Lemma polynomial_continuous : forall a b c d, continuity (fun s => a * s * s * s + b * s * s + c * s + d).
Proof. intros a b c d. apply derivable_continuous. reg. Qed.

Lemma cube_continuous : forall a b c d, continuity (fun s => a * (s * s * s) + b * (s * s) + c * s + d).
Proof. intros a b c d. apply derivable_continuous. reg. Qed.

Lemma square_continuous : forall a b c, continuity (fun s => 3 * a * s * s + 2 * b * s + c).
Proof. intros a b c. apply derivable_continuous. reg. Qed.

Lemma joins_fits : forall rest c points (h : Point -> R), joins points (c :: rest) ->
  fits (fun d t => h (curve_point d t)) c rest.
Proof.
  induction rest as [| d rest IH]; intros c points h J; cbn [fits]; [exact I |].
  inversion J as [| p q more ? ? _ E J' E2]. split; [| now apply (IH d (q :: more))].
  inversion J' as [| ? r more' ? ? E' _ _]. congruence.
Qed.

(** *** Tangents *)

Ltac slopes := apply point_eq; unfold curve_tangent, first_curve, last_curve, middle_curve,
  first_a, first_b, first_c, first_d, last_a, last_b, last_c, last_d,
  middle_a, middle_b, middle_c, middle_d, times, minus, plus;
  cbn [x y z ax bx cx dx ay by_ cy dy az bz cz dz]; field.

Definition halfway (p r : Point) : Point := times (1 / 2) (minus r p).

Lemma first_slope : forall p q r, curve_tangent (first_curve p q r) 1 = halfway p r.
Proof. intros. unfold halfway. slopes. Qed.
Lemma last_slope : forall p q r, curve_tangent (last_curve p q r) 0 = halfway p r.
Proof. intros. unfold halfway. slopes. Qed.
Lemma middle_slope : forall p q r s, curve_tangent (middle_curve p q r s) 0 = halfway p r /\
  curve_tangent (middle_curve p q r s) 1 = halfway q s.
Proof. intros. unfold halfway. split; slopes. Qed.

Lemma later_fits : forall rest p q r (h : Point -> R) c, h (curve_tangent c 1) = h (halfway p r) ->
  fits (fun d t => h (curve_tangent d t)) c (later_curves p q r rest).
Proof.
  induction rest as [| s rest IH]; intros p q r h c H; cbn [later_curves fits].
  - rewrite last_slope. auto.
  - destruct (middle_slope p q r s) as [A B]. rewrite A. split; [exact H |]. apply IH. now rewrite B.
Qed.

Lemma tangent_fits : forall p q r rest (h : Point -> R),
  fits (fun d t => h (curve_tangent d t)) (first_curve p q r) (later_curves p q r rest).
Proof. intros. apply later_fits. now rewrite first_slope. Qed.

(** The tangent at the inner stations *)
Lemma walk_tangent_inner : forall rest p q r a k u w v s,
  (forall d, In d (later_curves p q r rest) -> 0 < curve_length d) ->
  nth_error (p :: q :: r :: rest) k = Some u ->
  nth_error (p :: q :: r :: rest) (S k) = Some v ->
  nth_error (p :: q :: r :: rest) (S (S k)) = Some w ->
  nth_error (stations a (later_curves p q r rest)) k = Some s ->
  forall c more, later_curves p q r rest = c :: more ->
  walk curve_tangent c more (s - a) = halfway u w.
Proof.
  induction rest as [| t rest IH]; intros p q r a k u w v s P U V W S c more E.
  - cbn [later_curves] in E, S, P. injection E as <- <-. cbn [walk].
    destruct k as [| k]; [| destruct k; discriminate]. cbn in U, W, S.
    injection U as <-. injection W as <-. injection S as <-.
    rewrite <- (last_slope p q r). f_equal. pose proof (P _ (or_introl eq_refl)). field. lra.
  - cbn [later_curves] in E, S, P. injection E as <- <-.
    set (m := middle_curve p q r t) in *. pose proof (P m (or_introl eq_refl)) as L.
    assert (forall d, In d (later_curves q r t rest) -> 0 < curve_length d) as P'
      by (intros d I; apply P; now right).
    destruct (later_curves q r t rest) as [| c more] eqn:F; [destruct rest; discriminate |].
    cbn [walk]. destruct k as [| k].
    + cbn in U, W, S. injection U as <-. injection W as <-. injection S as <-.
      destruct (Rlt_dec _ _); [| lra]. destruct (middle_slope p q r t) as [A _].
      rewrite <- A. unfold m. f_equal. fold m. field. lra.
    + change (nth_error (stations (a + curve_length m) (c :: more)) k = Some s) in S.
      destruct (stations_above _ _ _ _ P' S) as [G _]. destruct (Rlt_dec _ _); [lra |].
      replace (s - a - curve_length m) with (s - (a + curve_length m)) by ring.
      eapply (IH q r t (a + curve_length m) k u w v s); rewrite ?F; try eassumption. reflexivity.
Qed.
