(** * C207-C210: velocities of pedestrians that avoid collisions. *)
From Coq Require Import List Bool Arith Reals Lia Lra Psatz.
From Verif Require Import M_Orca S_Orca P_Orca.
Import ListNotations.
Local Open Scope R_scope.

(** ** C207: the nearest allowed velocity. *)
Theorem C207_nearest : forall lines speed preferred,
  / 2 ^ 52 <= speed -> crisp_lines lines -> (exists w, allowed lines speed w) ->
  exists v, optimize lines speed preferred false = Some v /\ nearest lines speed preferred v.
Proof.
  intros lines r p T C [w W]. destruct (start_near r p T) as (s & Es & Bs).
  unfold optimize, solve. rewrite Es.
  pose proof (satisfy_spec lines [] r p false s C Bs) as S. cbn [app] in S.
  destruct (satisfy [] lines r p false s) as [n v]. destruct S as [[-> B] | (L & _ & X)].
  - rewrite Nat.ltb_irrefl. exists v. split; [reflexivity | exact B].
  - exfalso. apply (X w). destruct W as [W1 W2]. split; [exact W1 | ].
    intros l I. apply W2. rewrite <- (firstn_skipn (S n) lines). apply in_or_app. left. exact I.
Qed.
(** The velocity does not depend on the order of the lines. *)
Theorem C207_order : forall lines lines' speed preferred v,
  / 2 ^ 52 <= speed -> crisp_lines lines -> (exists w, allowed lines speed w) ->
  (forall l, In l lines <-> In l lines') ->
  optimize lines speed preferred false = Some v -> optimize lines' speed preferred false = Some v.
Proof.
  intros lines lines' r p v T C W I E.
  assert (A : forall w, allowed lines r w <-> allowed lines' r w).
  { intros w. unfold allowed. split; intros [X Y]; (split; [exact X | intros l J; apply Y, I, J]). }
  assert (C' : crisp_lines lines').
  { destruct C as [C1 C2]. split; [intros l J; apply C1, I, J | intros a b J K; apply C2; apply I; assumption]. }
  destruct (C207_nearest lines r p T C W) as (v1 & E1 & N1 & M1). rewrite E in E1. injection E1 as <-.
  destruct W as [w W]. destruct (C207_nearest lines' r p T C' (ex_intro _ w (proj1 (A w) W))) as (v2 & E2 & N2 & M2).
  rewrite E2. f_equal.
  (* both are nearest; the middle would be nearer *)
  assert (N2' : allowed lines r v2) by (apply A, N2).
  assert (H : 0 <= 1 / 2 <= 1) by lra.
  pose proof (allowed_between lines r v v2 (1 / 2) H N1 N2') as M.
  pose proof (M1 _ M) as Q. rewrite distance_between in Q.
  pose proof (M1 v2 N2') as Q1. pose proof (M2 v (proj1 (A v) N1)) as Q2. pose proof (distance_nonneg v v2) as Q3.
  assert (Z : distance2 v v2 = 0) by lra.
  unfold distance2 in Z. pose proof (sq (vx v - vx v2)). pose proof (sq (vy v - vy v2)).
  assert (X : vx v - vx v2 = 0). { destruct (Rmult_integral (vx v - vx v2) (vx v - vx v2)); lra. }
  assert (Y : vy v - vy v2 = 0). { destruct (Rmult_integral (vy v - vy v2) (vy v - vy v2)); lra. }
  destruct v, v2. cbn in *. f_equal; lra.
Qed.
(** Without lines: the preferred velocity, shortened to the speed. *)
Theorem C207_free : forall speed preferred, / 2 ^ 52 <= speed ->
  optimize [] speed preferred false =
  Some (if Rle_dec (length2 preferred) (speed * speed) then preferred
        else Vec (vx preferred * speed / sqrt (length2 preferred)) (vy preferred * speed / sqrt (length2 preferred))).
Proof.
  intros r p T. unfold optimize, solve, start. rewrite dot_length. pose proof tiny_positive as TP. unfold tiny in TP.
  destruct (Rlt_dec (r * r) (length2 p)) as [L | L]; destruct (Rle_dec (length2 p) (r * r)) as [G | G]; try lra.
  - rewrite normalize_spec by (unfold tiny; nra). cbn. f_equal. unfold times. cbn.
    set (n := sqrt (length2 p)). assert (N : n <> 0). { unfold n. pose proof (sqrt_lt_R0 (length2 p)). nra. }
    f_equal; field; exact N.
  - reflexivity.
Qed.

(** ** C208: if no velocity is allowed. *)
Theorem C208_least : forall lines speed preferred,
  / 2 ^ 52 <= speed -> crisp_lines lines -> crisp_bisectors lines -> ~ (exists w, allowed lines speed w) ->
  exists v, optimize lines speed preferred false = Some v /\ least_wrong lines speed v.
Proof.
  intros lines r p T C CB N. destruct (start_near r p T) as (s & Es & Bs).
  unfold optimize, solve. rewrite Es.
  pose proof (satisfy_spec lines [] r p false s C Bs) as S. cbn [app] in S.
  destruct (satisfy [] lines r p false s) as [n v]. destruct S as [[-> [A B]] | (L & [[A1 A2] _] & X)].
  - exfalso. apply N. exists v. exact A.
  - apply Nat.ltb_lt in L. rewrite L.
    pose proof tiny_positive as TP. unfold tiny in TP.
    destruct (resolve_spec (skipn n lines) (firstn n lines) r 0 v) as (v' & E & SV & M).
    + lra.
    + rewrite firstn_skipn. exact C.
    + rewrite firstn_skipn. exact CB.
    + exact A1.
    + intros j J. apply left_right, A2, J.
    + intros; assumption.
    + exists v'. split; [exact E | ]. split; [exact SV | ].
      rewrite firstn_skipn in M. intros w b W Wb l I. apply (M w b W); [ | exact Wb | exact I].
      destruct (Rle_dec 0 b) as [Q | Q]; [exact Q | exfalso]. apply N. exists w. split; [exact W | ].
      intros l' I'. apply left_right. specialize (Wb l' I'). lra.
Qed.

(** Never faster than allowed, whatever the lines are. *)
Lemma narrow_keeps : forall l o lower upper a b,
  narrow l o (lower, upper) = Some (a, b) -> lower <= upper -> lower <= a /\ a <= b /\ b <= upper.
Proof.
  intros l o lower upper a b. unfold narrow. cbn [fst snd].
  destruct (Rle_dec (Rabs _) _).
  - destruct (Rlt_dec _ 0); [discriminate | ]. intros [= <- <-]. lra.
  - destruct (Rle_dec 0 _); cbn [fst snd]; destruct (Rlt_dec _ _); try discriminate; intros [= <- <-] B.
    + pose proof (Rmin_l upper (cross (direction o) (minus (point l) (point o)) / cross (direction l) (direction o))). lra.
    + pose proof (Rmax_l lower (cross (direction o) (minus (point l) (point o)) / cross (direction l) (direction o))). lra.
Qed.
Lemma narrow_all_keeps : forall l earlier lower upper a b,
  narrow_all l earlier (lower, upper) = Some (a, b) -> lower <= upper -> lower <= a /\ a <= b /\ b <= upper.
Proof.
  intros l. induction earlier as [| o earlier IH]; cbn; intros lower upper a b E B.
  - injection E as <- <-. lra.
  - destruct (narrow l o (lower, upper)) as [[x y] | ] eqn:N; [ | discriminate].
    apply narrow_keeps in N; [ | exact B]. apply IH in E; lra.
Qed.
Lemma on_line_slow : forall earlier l r p align v, unit l -> on_line earlier l r p align = Some v -> slow r v.
Proof.
  intros earlier l r p align v U. unfold on_line. set (q := dot (point l) (direction l)).
  set (disc := q * q + r * r - dot (point l) (point l)).
  destruct (Rlt_dec disc 0) as [N | N]; [discriminate | ].
  destruct (narrow_all _ _ _) as [[a b] | ] eqn:E; [ | discriminate].
  pose proof (sqrt_pos disc). apply narrow_all_keeps in E; [ | lra].
  match goal with |- Some (plus _ (times _ ?t0)) = _ -> _ => set (t := t0) end. intros [= <-].
  change (slow r (along l t)). unfold slow. rewrite along_length by exact U. fold q.
  assert (T : a <= t <= b).
  { unfold t. repeat match goal with |- context [Rlt_dec ?x ?y] => destruct (Rlt_dec x y)
                     | |- context [if align then _ else _] => destruct align end; lra. }
  assert (B : (t + q) * (t + q) <= disc) by (apply square_bound; lra).
  unfold disc in B. rewrite dot_length in B. lra.
Qed.
Lemma satisfy_slow : forall rest earlier r p align result, (forall l, In l rest -> unit l) -> slow r result ->
  slow r (snd (satisfy earlier rest r p align result)).
Proof.
  induction rest as [| l rest IH]; cbn; intros earlier r p align result U S; [exact S | ].
  assert (U' : forall x, In x rest -> unit x) by (intros; apply U; right; assumption).
  destruct (Rlt_dec _ _); [ | apply IH; assumption].
  destruct (on_line earlier l r p align) as [v | ] eqn:E; [ | exact S].
  apply IH; [exact U' | ]. apply (on_line_slow _ _ _ _ _ _ (U l (or_introl eq_refl)) E).
Qed.
Lemma projections_units : forall i earlier lines, projections i earlier = Some lines -> forall l, In l lines -> unit l.
Proof.
  intros i. induction earlier as [| j earlier IH]; cbn; intros lines E l I; [injection E as <-; destruct I | ].
  destruct (projected i j) as [x | ] eqn:P; [ | discriminate].
  destruct (projections i earlier) as [y | ]; [ | discriminate]. injection E as <-.
  apply in_app_or in I as [I | I]; [ | apply (IH y); auto].
  unfold projected in P. revert P.
  destruct (normalize (minus (direction j) (direction i))) as [d | ] eqn:N.
  - apply normalize_unit in N.
    repeat match goal with |- context [if ?c then _ else _] => destruct c end; intros [= <-];
      solve [destruct I as [<- | []]; exact N | destruct I].
  - repeat match goal with |- context [if ?c then _ else _] => destruct c end; try discriminate; intros [= <-]; destruct I.
Qed.
Theorem C208_speed : forall lines speed preferred v, (forall l, In l lines -> unit l) ->
  optimize lines speed preferred false = Some v -> slow speed v.
Proof.
  intros lines r p v U. unfold optimize, solve, start. rewrite dot_length.
  assert (R : forall rest earlier distance result v, (forall l, In l rest -> unit l) -> slow r result ->
                resolve earlier rest r distance result = Some v -> slow r v).
  { clear. induction rest as [| l rest IH]; cbn; intros earlier distance result v U S.
    - intros [= <-]. exact S.
    - assert (U' : forall x, In x rest -> unit x) by (intros; apply U; right; assumption).
      destruct (Rlt_dec _ _); [ | apply IH; assumption].
      destruct (projections l earlier) as [ls | ] eqn:P; [ | discriminate].
      unfold solve, start. set (normal := Vec _ _).
      pose proof (satisfy_slow ls [] r normal true (times normal r) (projections_units _ _ _ P)) as Q.
      destruct (satisfy [] ls r normal true (times normal r)) as [n x]. cbn [snd] in Q.
      assert (SN : slow r (times normal r)).
      { pose proof (U l (or_introl eq_refl)) as UL. unfold unit in UL. unfold slow.
        replace (length2 (times normal r)) with (length2 (direction l) * (r * r))
          by (unfold normal, length2, times; cbn; ring). rewrite UL. lra. }
      intros E. eapply IH; [exact U' | | exact E]. match goal with |- slow _ (if ?c then _ else _) => destruct c end; [exact S | exact (Q SN)]. }
  assert (F : forall s, slow r s -> (let (n, x) := satisfy [] lines r p false s in
                if Nat.ltb n (length lines) then resolve (firstn n lines) (skipn n lines) r 0 x else Some x) = Some v -> slow r v).
  { intros s S. pose proof (satisfy_slow lines [] r p false s U S) as Q.
    destruct (satisfy [] lines r p false s) as [n x]. cbn [snd] in Q. destruct (Nat.ltb n (length lines)).
    - apply R; [ | exact Q]. intros l I. apply U. rewrite <- (firstn_skipn n lines). apply in_or_app. right. exact I.
    - intros [= <-]. exact Q. }
  destruct (Rlt_dec (r * r) (length2 p)) as [L | L].
  - destruct (normalize p) as [u | ] eqn:N; [ | discriminate]. apply normalize_unit in N. apply F.
    unfold slow. replace (length2 (times u r)) with (length2 u * (r * r)) by (unfold length2, times; cbn; ring).
    rewrite N. lra.
  - apply F. unfold slow. lra.
Qed.

(** A pedestrian who wants to go to the right at 5 m/s, may go 4 m/s, and must stay above one line and on the
    left of another. *)
Example C207_example :
  let lines := [Line (Vec 0 1) (Vec 1 0); Line (Vec 3 0) (Vec 0 1)] in
  crisp_lines lines /\ allowed lines 4 (Vec 0 2) /\ optimize lines 4 (Vec 5 0) false = Some (Vec 3 1).
Proof.
  intros lines. assert (C : crisp_lines lines).
  { split.
    - intros l [<- | [<- | []]]; unfold unit, length2; cbn; lra.
    - intros a b [<- | [<- | []]] [<- | [<- | []]]; unfold crisp; cbn; (left; lra) || right.
      + replace (1 * 1 - 0 * 0) with 1 by lra. rewrite Rabs_R1. lra.
      + replace (0 * 0 - 1 * 1) with (-1) by lra. rewrite Rabs_left; lra. }
  assert (A : allowed lines 4 (Vec 0 2)).
  { split; [unfold slow, length2; cbn; lra | ]. intros l [<- | [<- | []]]; unfold left_of; cbn; lra. }
  split; [exact C | split; [exact A | ]].
  assert (T : / 2 ^ 52 <= 4). { pose proof tiny_small. unfold tiny in *. lra. }
  destruct (C207_nearest lines 4 (Vec 5 0) T C (ex_intro _ _ A)) as (v & -> & [S L] & N). f_equal.
  assert (A2 : allowed lines 4 (Vec 3 1)).
  { split; [unfold slow, length2; cbn; lra | ]. intros l [<- | [<- | []]]; unfold left_of; cbn; lra. }
  specialize (N _ A2). pose proof (L _ (or_introl eq_refl)) as L1. pose proof (L _ (or_intror (or_introl eq_refl))) as L2.
  unfold left_of, distance2 in *. cbn in *. destruct v as [x y]. cbn in *.
  assert (X : x <= 3) by lra. assert (Y : 1 <= y) by lra.
  f_equal; nra.
Qed.
(** One who must be above one line and below a lower one goes along the middle. *)
Example C208_example :
  let lines := [Line (Vec 0 1) (Vec 1 0); Line (Vec 0 (-1)) (Vec (-1) 0)] in
  crisp_lines lines /\ crisp_bisectors lines /\ ~ (exists w, allowed lines 4 w) /\
  exists x, optimize lines 4 (Vec 5 0) false = Some (Vec x 0).
Proof.
  intros lines. assert (C : crisp_lines lines).
  { split.
    - intros l [<- | [<- | []]]; unfold unit, length2; cbn; lra.
    - intros a b [<- | [<- | []]] [<- | [<- | []]]; unfold crisp; cbn; left; lra. }
  assert (CB : crisp_bisectors lines).
  { intros a b c [<- | [<- | []]] [<- | [<- | []]] [<- | [<- | []]] X Y;
      try (exfalso; apply X; reflexivity); try (exfalso; apply Y; reflexivity); left; cbn; ring. }
  assert (N : ~ (exists w, allowed lines 4 w)).
  { intros [w [_ L]]. pose proof (L _ (or_introl eq_refl)) as L1.
    pose proof (L _ (or_intror (or_introl eq_refl))) as L2. unfold left_of in *. cbn in *. lra. }
  split; [exact C | split; [exact CB | split; [exact N | ]]].
  assert (T : / 2 ^ 52 <= 4). { pose proof tiny_small. unfold tiny in *. lra. }
  destruct (C208_least lines 4 (Vec 5 0) T C CB N) as ([x y] & -> & S & M).
  assert (Z : slow 4 (Vec 0 0)) by (unfold slow, length2; cbn; lra).
  specialize (M (Vec 0 0) 1 Z).
  assert (W : forall l, In l lines -> to_the_right l (Vec 0 0) <= 1).
  { intros l [<- | [<- | []]]; unfold to_the_right; cbn; lra. }
  pose proof (M W _ (or_introl eq_refl)) as L1. pose proof (M W _ (or_intror (or_introl eq_refl))) as L2.
  unfold to_the_right in *. cbn in *. exists x. do 2 f_equal. lra.
Qed.

(** ** C209: the lines. *)
Lemma divide_some : forall a k u, divide a k = Some u -> k <> 0 /\ u = Vec (vx a / k) (vy a / k).
Proof. intros a k u. unfold divide. destruct (Req_EM_T k 0); [discriminate | ]. intros [= <-]. auto. Qed.
Lemma divided_unit : forall w u, divide w (sqrt (dot w w)) = Some u -> length2 u = 1 /\ dot u w = sqrt (dot w w).
Proof.
  intros w u E. apply divide_some in E as [N ->]. rewrite dot_length in *. set (n := sqrt (length2 w)) in *.
  assert (S : n * n = length2 w) by (apply sqrt_sqrt, length_nonneg). split.
  - transitivity (length2 w / (n * n)); [unfold length2; cbn; field; exact N | ]. rewrite S. field. nra.
  - transitivity (length2 w / n); [unfold dot, length2; cbn; field; exact N | ]. rewrite <- S. field. exact N.
Qed.
Lemma leg_direction : forall x y r squared leg, x * x + y * y = squared -> squared <> 0 -> leg * leg = squared - r * r ->
  (length2 (Vec ((x * leg - y * r) / squared) ((x * r + y * leg) / squared)) = 1 /\
   (x * leg - y * r) / squared * y - (x * r + y * leg) / squared * x = - r) /\
  (length2 (times (Vec ((x * leg + y * r) / squared) ((- x * r + y * leg) / squared)) (-1)) = 1 /\
   (x * leg + y * r) / squared * -1 * y - (- x * r + y * leg) / squared * -1 * x = - r).
Proof.
  intros x y r k leg K N L. unfold length2, times. cbn.
  assert (P : forall z, z = k * k -> z / (k * k) = 1) by (intros z ->; field; exact N).
  assert (Q : forall z, z = - r * k -> z / k = - r) by (intros z ->; field; exact N).
  repeat split.
  - transitivity ((x * x + y * y) * (leg * leg + r * r) / (k * k)); [field; exact N | ]. apply P. rewrite K, L. ring.
  - transitivity (- r * (x * x + y * y) / k); [field; exact N | ]. apply Q. rewrite K. ring.
  - transitivity ((x * x + y * y) * (leg * leg + r * r) / (k * k)); [field; exact N | ]. apply P. rewrite K, L. ring.
  - transitivity (- r * (x * x + y * y) / k); [field; exact N | ]. apply Q. rewrite K. ring.
Qed.
(** The cases of a line. *)
Lemma front_dec : forall between relative r,
  (at_front between relative r /\
   (if Rlt_dec (dot (minus relative (times between (1 / 5))) between) 0 then true else false) &&
   (if Rlt_dec (r * r * dot (minus relative (times between (1 / 5))) (minus relative (times between (1 / 5))))
         (dot (minus relative (times between (1 / 5))) between * dot (minus relative (times between (1 / 5))) between)
    then true else false) = true) \/
  (~ at_front between relative r /\
   (if Rlt_dec (dot (minus relative (times between (1 / 5))) between) 0 then true else false) &&
   (if Rlt_dec (r * r * dot (minus relative (times between (1 / 5))) (minus relative (times between (1 / 5))))
         (dot (minus relative (times between (1 / 5))) between * dot (minus relative (times between (1 / 5))) between)
    then true else false) = false).
Proof.
  intros p v r. unfold at_front. replace (minus v (times p (1 / 5))) with (beyond p v)
    by (unfold beyond, minus, times; cbn; f_equal; field).
  change (dot (beyond p v) p) with (product (beyond p v) p). rewrite dot_length.
  destruct (Rlt_dec (product (beyond p v) p) 0), (Rlt_dec (r * r * length2 (beyond p v)) (product (beyond p v) p * product (beyond p v) p));
    cbn; tauto.
Qed.
Theorem C209_unit : forall ego between relative r step l, orca_line ego between relative r step = Some l -> unit l.
Proof.
  intros ego p v r step l. unfold orca_line, unit.
  destruct (Rle_dec (r * r) (dot p p)) as [A | A].
  - destruct (_ && _).
    + destruct (divide _ _) as [u | ] eqn:D; [ | discriminate]. intros [= <-]. cbn [direction].
      apply divided_unit in D as [D _]. unfold length2 in *. cbn. lra.
    + destruct (Req_EM_T (dot p p) 0) as [Z | Z]; [discriminate | ]. intros [= <-]. cbn [direction].
      assert (LL : 0 <= dot p p - r * r) by lra.
      pose proof (leg_direction (vx p) (vy p) r (dot p p) (sqrt (dot p p - r * r)) eq_refl Z (sqrt_sqrt _ LL)) as [[X _] [Y _]].
      destruct (Rlt_dec 0 _); assumption.
  - destruct (Req_EM_T step 0); [discriminate | ]. destruct (divide _ _) as [u | ] eqn:D; [ | discriminate]. intros [= <-].
    cbn [direction]. apply divided_unit in D as [D _]. unfold length2 in *. cbn. lra.
Qed.
(** Beside the cone: where both keep on the allowed side of their lines, the entities stay apart for ever. *)
Lemma leg_line : forall ego p v r step l, r * r <= length2 p -> ~ at_front p v r ->
  orca_line ego p v r step = Some l ->
  exists d u, l = Line (plus ego (times u (1 / 2))) d /\ length2 d = 1 /\ cross d p = - r /\ cross d (plus v u) = 0 /\
    d = (let leg := sqrt (dot p p - r * r) in
         if Rlt_dec 0 (cross p (minus v (times p (1 / 5))))
         then Vec ((vx p * leg - vy p * r) / dot p p) ((vx p * r + vy p * leg) / dot p p)
         else times (Vec ((vx p * leg + vy p * r) / dot p p) ((- vx p * r + vy p * leg) / dot p p)) (-1)) /\
    u = minus (times d (dot v d)) v.
Proof.
  intros ego p v r step l A F. unfold orca_line.
  destruct (Rle_dec (r * r) (dot p p)) as [_ | A']; [ | contradiction].
  destruct (front_dec p v r) as [[X _] | [_ ->]]; [contradiction | ].
  destruct (Req_EM_T (dot p p) 0) as [Z | Z]; [discriminate | ]. intros [= <-].
  match goal with |- context [if Rlt_dec 0 (cross p ?w) then ?a else ?b] => set (d := if Rlt_dec 0 (cross p w) then a else b) end.
  exists d, (minus (times d (dot v d)) v). split; [reflexivity | ].
  assert (LL : 0 <= dot p p - r * r) by (rewrite dot_length; lra).
  pose proof (leg_direction (vx p) (vy p) r (dot p p) (sqrt (dot p p - r * r)) eq_refl Z (sqrt_sqrt _ LL)) as [[X1 X2] [Y1 Y2]].
  assert (U : length2 d = 1 /\ cross d p = - r).
  { unfold d. destruct (Rlt_dec 0 _); (split; [assumption | ]); unfold cross; cbn [vx vy times]; assumption. }
  destruct U as [U1 U2]. split; [exact U1 | split; [exact U2 | split; [ | split; reflexivity]]].
  unfold cross, plus, minus, times. cbn. ring.
Qed.
Theorem C209_apart : forall a b p r step la lb va vb t,
  0 <= r -> r * r <= length2 p -> ~ at_front p (difference a b) r ->
  orca_line a p (difference a b) r step = Some la ->
  orca_line b (opposite p) (difference b a) r step = Some lb ->
  left_of la va -> left_of lb vb -> 0 <= t -> r * r <= length2 (after p va vb t).
Proof.
  intros a b p r step la lb va vb t R A F EA EB LA LB T.
  destruct (leg_line _ _ _ _ _ _ A F EA) as (d & u & -> & U & D & C & Ed & Eu).
  assert (F' : ~ at_front (opposite p) (difference b a) r).
  { intros [X Y]. apply F. unfold at_front, product, length2, beyond, opposite, difference in *. cbn in *. split; lra. }
  assert (A' : r * r <= length2 (opposite p)) by (unfold length2, opposite in *; cbn; lra).
  destruct (leg_line _ _ _ _ _ _ A' F' EB) as (d' & u' & -> & _ & _ & _ & Ed' & Eu').
  assert (Dd : d' = times d (-1)).
  { rewrite Ed, Ed'. cbv zeta. replace (dot (opposite p) (opposite p)) with (dot p p) by (unfold dot, opposite; cbn; ring).
    replace (cross (opposite p) (minus (difference b a) (times (opposite p) (1 / 5))))
      with (cross p (minus (difference a b) (times p (1 / 5)))) by (unfold cross, opposite, difference, minus, times; cbn; ring).
    destruct (Rlt_dec 0 _); unfold times, opposite; cbn; f_equal; unfold Rdiv; ring. }
  assert (Uu : u' = times u (-1)).
  { rewrite Eu', Eu, Dd. unfold minus, times, dot, difference. cbn. f_equal; ring. }
  rewrite Dd, Uu in LB. clear Ed Eu Ed' Eu'.
  assert (V : 0 <= cross d (difference va vb)).
  { unfold left_of in LA, LB. unfold cross, plus, times, difference in *. cbn in *. lra. }
  assert (W : cross d (after p va vb t) <= - r).
  { replace (cross d (after p va vb t)) with (cross d p - t * cross d (difference va vb))
      by (unfold cross, after, difference; cbn; ring). nra. }
  assert (Q : cross d (after p va vb t) * cross d (after p va vb t) <= length2 d * length2 (after p va vb t)).
  { generalize (after p va vb t). intros z. replace (cross d z) with (dot d (Vec (vy z) (- vx z))) by (unfold dot, cross; cbn; ring).
    replace (length2 z) with (length2 (Vec (vy z) (- vx z))) by (unfold length2; cbn; ring). apply cauchy. }
  rewrite U in Q. set (c := cross d (after p va vb t)) in *. nra.
Qed.
(** While they overlap: where both keep on the allowed side, they are apart after one step. *)
Lemma overlap_line : forall ego p v r step l, length2 p < r * r -> orca_line ego p v r step = Some l ->
  exists n u, l = Line (plus ego (times u (1 / 2))) (Vec (vy n) (vx n * -1)) /\ length2 n = 1 /\
    divide (minus v (times p (1 / step))) (sqrt (dot (minus v (times p (1 / step))) (minus v (times p (1 / step))))) = Some n /\
    u = times n (r * (1 / step) - sqrt (dot (minus v (times p (1 / step))) (minus v (times p (1 / step))))).
Proof.
  intros ego p v r step l A. unfold orca_line. rewrite dot_length.
  destruct (Rle_dec (r * r) (length2 p)); [lra | ]. destruct (Req_EM_T step 0); [discriminate | ].
  destruct (divide _ _) as [n' | ] eqn:D; [ | discriminate]. intros [= <-].
  eexists _, _. split; [reflexivity | ]. split; [apply (divided_unit _ _ D) | split; reflexivity].
Qed.
Theorem C209_separate : forall a b p r step la lb va vb,
  0 <= r -> length2 p < r * r -> 0 < step ->
  orca_line a p (difference a b) r step = Some la ->
  orca_line b (opposite p) (difference b a) r step = Some lb ->
  left_of la va -> left_of lb vb -> r * r <= length2 (after p va vb step).
Proof.
  intros a b p r step la lb va vb R A S EA EB LA LB.
  destruct (overlap_line _ _ _ _ _ _ A EA) as (n & u & -> & U & D & Eu).
  assert (A' : length2 (opposite p) < r * r) by (unfold length2, opposite in *; cbn; lra).
  destruct (overlap_line _ _ _ _ _ _ A' EB) as (n' & u' & -> & _ & D' & Eu').
  set (w := minus (difference a b) (times p (1 / step))) in *.
  assert (W' : minus (difference b a) (times (opposite p) (1 / step)) = times w (-1)).
  { unfold w, minus, difference, times, opposite. cbn. f_equal; ring. }
  rewrite W' in D', Eu'.
  assert (WW : dot (times w (-1)) (times w (-1)) = dot w w) by (unfold dot, times; cbn; ring).
  rewrite WW in D', Eu'.
  pose proof (divided_unit _ _ D) as [_ Nw].
  apply divide_some in D as [NZ En]. apply divide_some in D' as [_ En'].
  assert (Nn : n' = times n (-1)).
  { rewrite En', En. unfold times. cbn. f_equal; unfold Rdiv; ring. }
  set (m := sqrt (dot w w)) in *. clearbody m. clear En En' W' WW A'. subst n' u u'.
  assert (V : r * (1 / step) <= dot n (minus (difference va vb) (times p (1 / step)))).
  { assert (X : 0 <= dot n (minus (difference va vb) (difference a b)) - length2 n * (r * (1 / step) - m)).
    { unfold left_of in LA, LB. unfold dot, length2, plus, times, minus, difference in *. cbn in *. lra. }
    rewrite U in X.
    replace (dot n (minus (difference va vb) (times p (1 / step))))
      with (dot n (minus (difference va vb) (difference a b)) + dot n w) by (unfold w, dot, minus, difference, times; cbn; ring).
    lra. }
  set (z := minus (difference va vb) (times p (1 / step))) in *.
  assert (E : length2 (after p va vb step) = step * step * length2 z).
  { unfold z, length2, after, minus, difference, times. cbn. field. lra. }
  pose proof (cauchy n z) as CS. rewrite U in CS. rewrite E.
  assert (Q : r <= step * dot n z).
  { apply Rmult_le_compat_l with (r := step) in V; [ | lra]. replace (step * (r * (1 / step))) with r in V by (field; lra). exact V. }
  assert (QQ : r * r <= step * dot n z * (step * dot n z)) by (apply Rmult_le_compat; lra).
  assert (step * step * (dot n z * dot n z) <= step * step * (1 * length2 z)) by (apply Rmult_le_compat_l; [nra | exact CS]).
  lra.
Qed.
(** At the front of the cone the line passes through the present velocity. *)
Theorem C209_front : forall ego p v r step l w, r * r <= length2 p -> at_front p v r ->
  orca_line ego p v r step = Some l ->
  (left_of l w <-> 0 <= product (beyond p v) (difference w ego)).
Proof.
  intros ego p v r step l w A F. unfold orca_line. rewrite dot_length.
  destruct (Rle_dec (r * r) (length2 p)); [ | contradiction].
  destruct (front_dec p v r) as [[_ ->] | [X _]]; [ | contradiction].
  replace (minus v (times p (1 / 5))) with (beyond p v) by (unfold beyond, minus, times; cbn; f_equal; field).
  destruct (divide _ _) as [n' | ] eqn:D; [ | discriminate]. intros [= <-].
  apply divide_some in D as [NZ ->]. set (z := beyond p v) in *. set (m := sqrt (dot z z)) in *.
  assert (P : 0 < / m). { apply Rinv_0_lt_compat. pose proof (sqrt_pos (dot z z)). fold m in H. lra. }
  unfold left_of. cbn [direction point].
  match goal with |- 0 <= ?x <-> _ => replace x with (/ m * product z (difference w ego)) end.
  - split; intros H; [ | apply Rmult_le_pos; lra].
    apply Rmult_le_reg_l with (/ m); [exact P | ]. lra.
  - unfold product, difference, plus, times, Rdiv. cbn. ring.
Qed.
(** So two entities that keep to their lines collide within the five seconds, ... *)
Theorem C209_front_refuted : exists a b p r step la lb va vb t,
  0 <= r /\ r * r <= length2 p /\ at_front p (difference a b) r /\
  orca_line a p (difference a b) r step = Some la /\
  orca_line b (opposite p) (difference b a) r step = Some lb /\
  left_of la va /\ left_of lb vb /\ 0 <= t <= 5 /\ length2 (after p va vb t) < r * r.
Proof.
  set (a := Vec (3 / 4) 0). set (b := Vec (- 3 / 4) 0). set (p := Vec 10 0).
  assert (FA : at_front p (difference a b) 5).
  { unfold at_front, product, length2, beyond, difference, a, b, p. cbn. lra. }
  assert (FB : at_front (opposite p) (difference b a) 5).
  { unfold at_front, product, length2, beyond, difference, opposite, a, b, p. cbn. lra. }
  assert (AA : 5 * 5 <= length2 p) by (unfold length2, p; cbn; lra).
  assert (AB : 5 * 5 <= length2 (opposite p)) by (unfold length2, opposite, p; cbn; lra).
  assert (X : forall ego q v, 5 * 5 <= length2 q -> at_front q v 5 -> exists l, orca_line ego q v 5 1 = Some l).
  { intros ego q v A F. unfold orca_line. rewrite dot_length. destruct (Rle_dec (5 * 5) (length2 q)); [ | contradiction].
    destruct (front_dec q v 5) as [[_ ->] | [Y _]]; [ | contradiction].
    replace (minus v (times q (1 / 5))) with (beyond q v) by (unfold beyond, minus, times; cbn; f_equal; field).
    unfold divide. destruct (Req_EM_T _ 0) as [Z | Z]; [exfalso | eexists; reflexivity].
    destruct F as [F _]. assert (L : length2 (beyond q v) = 0).
    { rewrite <- (sqrt_sqrt (length2 (beyond q v)) (length_nonneg _)). rewrite dot_length in Z. rewrite Z. ring. }
    set (z := beyond q v) in *. pose proof (cauchy z q) as CS. rewrite L in CS. unfold dot in CS. unfold product in F.
    pose proof (sq (vx z * vx q + vy z * vy q)).
    assert (vx z * vx q + vy z * vy q = 0) by (destruct (Rmult_integral (vx z * vx q + vy z * vy q) (vx z * vx q + vy z * vy q)); lra).
    lra. }
  destruct (X a p (difference a b) AA FA) as (la & EA). destruct (X b (opposite p) (difference b a) AB FB) as (lb & EB).
  exists a, b, p, 5, 1, la, lb, a, b, 4.
  split; [lra | ]. split; [exact AA | ]. split; [exact FA | ]. split; [exact EA | ]. split; [exact EB | ].
  split; [apply (C209_front _ _ _ _ _ _ a AA FA EA); unfold product, difference; cbn; lra | ].
  split; [apply (C209_front _ _ _ _ _ _ b AB FB EB); unfold product, difference; cbn; lra | ].
  split; [lra | ]. unfold length2, after, a, b, p. cbn. lra.
Qed.
(** ... and one that stands may not move towards another that stands in front of it, however far away. *)
Theorem C209_standing : forall x r step l w, 0 < r < x ->
  orca_line (Vec 0 0) (Vec x 0) (Vec 0 0) r step = Some l -> left_of l w -> vx w <= 0.
Proof.
  intros x r step l w [R X] E L.
  assert (A : r * r <= length2 (Vec x 0)) by (unfold length2; cbn; nra).
  assert (RX : r * r < x * x) by nra. assert (XX : 0 < x * x) by nra.
  assert (F : at_front (Vec x 0) (Vec 0 0) r).
  { unfold at_front, product, length2, beyond. cbn. split; [lra | ].
    assert (r * r * (x * x) < x * x * (x * x)) by (apply Rmult_lt_compat_r; lra). lra. }
  apply (C209_front _ _ _ _ _ _ w A F E) in L. unfold product, beyond, difference in L. cbn in L. nra.
Qed.

(** ** C210: the size of an entity. *)
Theorem C210_corner : forall x y heading towards distance,
  0 < x -> 0 < y -> 0 < distance ->
  Rabs (distance * cos (towards - heading)) = x / 2 -> Rabs (distance * sin (towards - heading)) = y / 2 ->
  ellipse_radius x y towards heading = distance.
Proof.
  intros x y h g d X Y D C S. unfold ellipse_radius.
  set (c := cos (g - h)) in *. set (s := sin (g - h)) in *.
  pose proof (sqrt_sqrt 2 ltac:(lra)) as Q. assert (P : 0 < sqrt 2) by (apply sqrt_lt_R0; lra).
  set (a := x * (1 / 2) * sqrt 2). set (b := y * (1 / 2) * sqrt 2).
  assert (Aa : a * a = x * x / 2) by (unfold a; transitivity (x * x / 4 * (sqrt 2 * sqrt 2)); [field | rewrite Q; field]).
  assert (Bb : b * b = y * y / 2) by (unfold b; transitivity (y * y / 4 * (sqrt 2 * sqrt 2)); [field | rewrite Q; field]).
  assert (A0 : 0 < a) by (unfold a; repeat apply Rmult_lt_0_compat; lra).
  assert (B0 : 0 < b) by (unfold b; repeat apply Rmult_lt_0_compat; lra).
  assert (C2 : d * c * (d * c) = x / 2 * (x / 2)).
  { rewrite <- (Rabs_pos_eq (d * c * (d * c)) (sq _)), Rabs_mult, C. reflexivity. }
  assert (S2 : d * s * (d * s) = y / 2 * (y / 2)).
  { rewrite <- (Rabs_pos_eq (d * s * (d * s)) (sq _)), Rabs_mult, S. reflexivity. }
  assert (AB0 : 0 < a * b) by (apply Rmult_lt_0_compat; assumption).
  assert (E : b * c * (b * c) + a * s * (a * s) = (a * b / d) * (a * b / d)).
  { transitivity ((b * b * (d * c * (d * c)) + a * a * (d * s * (d * s))) / (d * d)); [field; lra | ].
    rewrite C2, S2, Aa, Bb. transitivity (x * x / 2 * (y * y / 2) / (d * d)); [field; lra | ].
    rewrite <- Aa, <- Bb. field. lra. }
  assert (AD : 0 < a * b / d) by (unfold Rdiv; apply Rmult_lt_0_compat; [exact AB0 | apply Rinv_0_lt_compat, D]).
  rewrite E, sqrt_square by lra. field. repeat split; lra.
Qed.
Theorem C210_covers : forall x y heading towards distance,
  0 < x -> 0 < y -> 0 <= distance ->
  Rabs (distance * cos (towards - heading)) <= x / 2 -> Rabs (distance * sin (towards - heading)) <= y / 2 ->
  distance <= ellipse_radius x y towards heading.
Proof.
  intros x y h g d X Y D C S. unfold ellipse_radius.
  set (c := cos (g - h)) in *. set (s := sin (g - h)) in *.
  assert (SC : s * s + c * c = 1) by apply (sin2_cos2 (g - h)).
  pose proof (sqrt_sqrt 2 ltac:(lra)) as Q. assert (P : 0 < sqrt 2) by (apply sqrt_lt_R0; lra).
  set (a := x * (1 / 2) * sqrt 2). set (b := y * (1 / 2) * sqrt 2).
  assert (Aa : a * a = x * x / 2) by (unfold a; transitivity (x * x / 4 * (sqrt 2 * sqrt 2)); [field | rewrite Q; field]).
  assert (Bb : b * b = y * y / 2) by (unfold b; transitivity (y * y / 4 * (sqrt 2 * sqrt 2)); [field | rewrite Q; field]).
  assert (A0 : 0 < a) by (unfold a; repeat apply Rmult_lt_0_compat; lra).
  assert (B0 : 0 < b) by (unfold b; repeat apply Rmult_lt_0_compat; lra).
  set (k := b * c * (b * c) + a * s * (a * s)).
  assert (K : 0 < k).
  { assert (E : k = b * b * (c * c) + a * a * (s * s)) by (unfold k; ring). rewrite E.
    pose proof (sq s) as S0. pose proof (sq c) as C0.
    assert (BB : 0 < b * b) by (apply Rmult_lt_0_compat; lra). assert (AA : 0 < a * a) by (apply Rmult_lt_0_compat; lra).
    assert (0 <= b * b * (c * c)) by (apply Rmult_le_pos; lra). assert (0 <= a * a * (s * s)) by (apply Rmult_le_pos; lra).
    destruct (Rlt_dec 0 (s * s)) as [Z | Z].
    - assert (0 < a * a * (s * s)) by (apply Rmult_lt_0_compat; lra). lra.
    - assert (0 < b * b * (c * c)) by (apply Rmult_lt_0_compat; lra). lra. }
  assert (SK : 0 < sqrt k) by (apply sqrt_lt_R0, K).
  assert (KK : sqrt k * sqrt k = k) by (apply sqrt_sqrt; lra).
  apply Rmult_le_reg_r with (sqrt k); [exact SK | ]. replace (a * b / sqrt k * sqrt k) with (a * b) by (field; lra).
  assert (AB0 : 0 < a * b) by (apply Rmult_lt_0_compat; assumption).
  assert (C2 : d * c * (d * c) <= x / 2 * (x / 2)).
  { rewrite <- (Rabs_pos_eq (d * c * (d * c)) (sq _)), Rabs_mult. apply Rmult_le_compat; try apply Rabs_pos; assumption. }
  assert (S2 : d * s * (d * s) <= y / 2 * (y / 2)).
  { rewrite <- (Rabs_pos_eq (d * s * (d * s)) (sq _)), Rabs_mult. apply Rmult_le_compat; try apply Rabs_pos; assumption. }
  assert (E : d * sqrt k * (d * sqrt k) <= a * b * (a * b)).
  { replace (d * sqrt k * (d * sqrt k)) with (d * d * (sqrt k * sqrt k)) by ring. rewrite KK.
    replace (d * d * k) with (b * b * (d * c * (d * c)) + a * a * (d * s * (d * s))) by (unfold k; ring).
    replace (a * b * (a * b)) with (a * a * (b * b)) by ring. rewrite Aa, Bb.
    assert (y * y / 2 * (d * c * (d * c)) <= y * y / 2 * (x / 2 * (x / 2))) by (apply Rmult_le_compat_l; [pose proof (sq x); pose proof (sq y); lra | assumption]).
    assert (x * x / 2 * (d * s * (d * s)) <= x * x / 2 * (y / 2 * (y / 2))) by (apply Rmult_le_compat_l; [pose proof (sq x); pose proof (sq y); lra | assumption]).
    lra. }
  destruct (Rle_dec (d * sqrt k) (a * b)) as [G | G]; [exact G | exfalso].
  assert (a * b * (a * b) < d * sqrt k * (d * sqrt k)) by (apply Rmult_le_0_lt_compat; lra). lra.
Qed.
(** Both entities use the same sum of radii, whichever of the two angles between them the other one sees. *)
Theorem C210_symmetric : forall ax ay aa bx b_y ba towards back,
  back = towards + PI \/ back = towards - PI ->
  combined_radius bx b_y ba ax ay aa back = combined_radius ax ay aa bx b_y ba towards.
Proof.
  intros ax ay aa bx b_y ba g back H. unfold combined_radius, ellipse_radius.
  assert (P : forall x, cos (x + PI) = - cos x /\ sin (x + PI) = - sin x) by (intros; split; [apply neg_cos | apply neg_sin]).
  assert (M : forall z, cos (back - z) * cos (back - z) = cos (PI + g - z) * cos (PI + g - z) /\
                        sin (back - z) * sin (back - z) = sin (PI + g - z) * sin (PI + g - z)).
  { intros z. destruct H as [-> | ->].
    - replace (g + PI - z) with (PI + g - z) by ring. split; reflexivity.
    - replace (PI + g - z) with (g - PI - z + PI + PI) by ring.
      destruct (P (g - PI - z + PI)) as [-> ->]. destruct (P (g - PI - z)) as [-> ->]. split; ring. }
  assert (N : forall z, cos (PI + back - z) * cos (PI + back - z) = cos (g - z) * cos (g - z) /\
                        sin (PI + back - z) * sin (PI + back - z) = sin (g - z) * sin (g - z)).
  { intros z. destruct H as [-> | ->].
    - replace (PI + (g + PI) - z) with (g - z + PI + PI) by ring.
      destruct (P (g - z + PI)) as [-> ->]. destruct (P (g - z)) as [-> ->]. split; ring.
    - replace (PI + (g - PI) - z) with (g - z) by ring. split; reflexivity. }
  assert (Q : forall a b c s c' s', c * c = c' * c' -> s * s = s' * s' ->
                b * c * (b * c) + a * s * (a * s) = b * c' * (b * c') + a * s' * (a * s')).
  { intros a b c s c' s' X Y. transitivity (b * b * (c * c) + a * a * (s * s)); [ring | ]. rewrite X, Y. ring. }
  rewrite (Q _ _ _ _ _ _ (proj1 (M ba)) (proj2 (M ba))), (Q _ _ _ _ _ _ (proj1 (N aa)) (proj2 (N aa))). ring.
Qed.

(** Two pedestrians that pass each other on the left of the cone, and two that overlap. *)
Example C209_example : ~ at_front (Vec 10 0) (difference (Vec 3 1) (Vec (-1) 0)) 5 /\ 5 * 5 <= length2 (Vec 10 0) /\
  exists la lb, orca_line (Vec 3 1) (Vec 10 0) (difference (Vec 3 1) (Vec (-1) 0)) 5 1 = Some la /\
    orca_line (Vec (-1) 0) (opposite (Vec 10 0)) (difference (Vec (-1) 0) (Vec 3 1)) 5 1 = Some lb.
Proof.
  assert (F : ~ at_front (Vec 10 0) (difference (Vec 3 1) (Vec (-1) 0)) 5).
  { unfold at_front, product, beyond, difference. cbn. lra. }
  assert (F' : ~ at_front (opposite (Vec 10 0)) (difference (Vec (-1) 0) (Vec 3 1)) 5).
  { unfold at_front, product, beyond, difference, opposite. cbn. lra. }
  split; [exact F | ]. split; [unfold length2; cbn; lra | ].
  assert (X : forall ego q v, 5 * 5 <= length2 q -> ~ at_front q v 5 -> exists l, orca_line ego q v 5 1 = Some l).
  { intros ego q v A N. unfold orca_line. rewrite dot_length. destruct (Rle_dec (5 * 5) (length2 q)); [ | contradiction].
    destruct (front_dec q v 5) as [[Y _] | [_ ->]]; [contradiction | ].
    destruct (Req_EM_T (length2 q) 0); [lra | eexists; reflexivity]. }
  destruct (X (Vec 3 1) (Vec 10 0) (difference (Vec 3 1) (Vec (-1) 0))) as (la & ->); [unfold length2; cbn; lra | exact F | ].
  destruct (X (Vec (-1) 0) (opposite (Vec 10 0)) (difference (Vec (-1) 0) (Vec 3 1))) as (lb & ->);
    [unfold length2, opposite; cbn; lra | exact F' | ].
  exists la, lb. split; reflexivity.
Qed.
Example C209_overlap_example : exists la lb,
  orca_line (Vec 0 0) (Vec 1 0) (difference (Vec 0 0) (Vec 0 0)) 2 (1 / 20) = Some la /\
  orca_line (Vec 0 0) (opposite (Vec 1 0)) (difference (Vec 0 0) (Vec 0 0)) 2 (1 / 20) = Some lb.
Proof.
  assert (X : forall q, length2 q = 1 -> exists l, orca_line (Vec 0 0) q (difference (Vec 0 0) (Vec 0 0)) 2 (1 / 20) = Some l).
  { intros q L. unfold orca_line. rewrite dot_length, L. destruct (Rle_dec (2 * 2) 1); [lra | ].
    destruct (Req_EM_T (1 / 20) 0); [lra | ]. unfold divide.
    assert (E : dot (minus (difference (Vec 0 0) (Vec 0 0)) (times q (1 / (1 / 20))))
                    (minus (difference (Vec 0 0) (Vec 0 0)) (times q (1 / (1 / 20)))) = 400).
    { transitivity (400 * length2 q); [unfold dot, length2, minus, difference, times; cbn; field | rewrite L; ring]. }
    rewrite E. assert (0 < sqrt 400) by (apply sqrt_lt_R0; lra). destruct (Req_EM_T (sqrt 400) 0); [lra | eexists; reflexivity]. }
  destruct (X (Vec 1 0)) as (la & ->); [unfold length2; cbn; ring | ].
  destruct (X (opposite (Vec 1 0))) as (lb & ->); [unfold length2, opposite; cbn; ring | ].
  exists la, lb. split; reflexivity.
Qed.
Example C210_example : 0 < 2 /\ Rabs (1 * cos (0 - 0)) <= 2 / 2 /\ Rabs (1 * sin (0 - 0)) <= 1 / 2.
Proof.
  rewrite Rminus_0_r, cos_0, sin_0, Rmult_1_r, Rmult_0_r, Rabs_R0, Rabs_R1. lra.
Qed.

Print Assumptions C207_nearest.
Print Assumptions C207_order.
Print Assumptions C207_free.
Print Assumptions C208_least.
Print Assumptions C208_speed.
Print Assumptions C209_unit.
Print Assumptions C209_apart.
Print Assumptions C209_separate.
Print Assumptions C209_front.
Print Assumptions C209_front_refuted.
Print Assumptions C209_standing.
Print Assumptions C210_corner.
Print Assumptions C210_covers.
Print Assumptions C210_symmetric.
