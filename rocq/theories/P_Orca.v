(** * Lemmas about lines, segments and the search along a line. *)
From Coq Require Import List Bool Arith Reals Lia Lra Psatz.
From Verif Require Import M_Orca S_Orca.
Import ListNotations.
Local Open Scope R_scope.

Definition along (l : line) (t : R) : vec := plus (point l) (times (direction l) t).
Definition between (v w : vec) (s : R) : vec := plus (times v (1 - s)) (times w s).

Lemma sq : forall x : R, 0 <= x * x.
Proof. exact Rle_0_sqr. Qed.
Lemma violation_right : forall l v, violation l v = to_the_right l v.
Proof. intros. unfold violation, to_the_right, cross, minus. cbn. ring. Qed.
Lemma left_right : forall l v, left_of l v <-> to_the_right l v <= 0.
Proof. intros. unfold left_of, to_the_right. lra. Qed.
Lemma right_between : forall l v w s,
  to_the_right l (between v w s) = (1 - s) * to_the_right l v + s * to_the_right l w.
Proof. intros. unfold to_the_right, between, plus, times. cbn. ring. Qed.
Lemma length_between : forall v w s,
  length2 (between v w s) = (1 - s) * length2 v + s * length2 w - s * (1 - s) * distance2 v w.
Proof. intros. unfold length2, distance2, between, plus, times. cbn. ring. Qed.
Lemma distance_between : forall p v w s,
  distance2 (between v w s) p = (1 - s) * distance2 v p + s * distance2 w p - s * (1 - s) * distance2 v w.
Proof. intros. unfold distance2, between, plus, times. cbn. ring. Qed.
Lemma dot_between : forall p v w s, dot p (between v w s) = (1 - s) * dot p v + s * dot p w.
Proof. intros. unfold dot, between, plus, times. cbn. ring. Qed.
Lemma length_nonneg : forall v, 0 <= length2 v.
Proof. intros. unfold length2. pose proof (sq (vx v)). pose proof (sq (vy v)). lra. Qed.
Lemma distance_nonneg : forall v w, 0 <= distance2 v w.
Proof.
  intros. unfold distance2. pose proof (Rle_0_sqr (vx v - vx w)). pose proof (Rle_0_sqr (vy v - vy w)).
  unfold Rsqr in *. lra.
Qed.
Lemma mixed : forall s a b m, 0 <= s <= 1 -> a <= m -> b <= m -> (1 - s) * a + s * b <= m.
Proof.
  intros s a b m [L U] A B. assert (0 <= (1 - s) * (m - a)) by (apply Rmult_le_pos; lra).
  assert (0 <= s * (m - b)) by (apply Rmult_le_pos; lra). lra.
Qed.
Lemma mixed_below : forall s a b m, 0 <= s <= 1 -> m <= a -> m <= b -> m <= (1 - s) * a + s * b.
Proof.
  intros s a b m [L U] A B. assert (0 <= (1 - s) * (a - m)) by (apply Rmult_le_pos; lra).
  assert (0 <= s * (b - m)) by (apply Rmult_le_pos; lra). lra.
Qed.
Lemma slow_between : forall r v w s, 0 <= s <= 1 -> slow r v -> slow r w -> slow r (between v w s).
Proof.
  unfold slow. intros r v w s B V W. rewrite length_between.
  pose proof (mixed s _ _ _ B V W). pose proof (distance_nonneg v w).
  assert (0 <= s * (1 - s)) by nra. nra.
Qed.
(** Where a segment reaches a given value. *)
Lemma reaches : forall l v w m, to_the_right l w <= m -> m < to_the_right l v ->
  exists s, 0 <= s <= 1 /\ to_the_right l (between v w s) = m.
Proof.
  intros l v w m W V. set (a := to_the_right l v) in *. set (b := to_the_right l w) in *.
  exists ((a - m) / (a - b)). assert (P : 0 < a - b) by lra. assert (Q : 0 < / (a - b)) by (apply Rinv_0_lt_compat; lra).
  repeat split.
  - unfold Rdiv. nra.
  - apply Rmult_le_reg_r with (a - b); [lra | ]. unfold Rdiv. rewrite Rmult_assoc, Rinv_l by lra. lra.
  - rewrite right_between. fold a b. field. lra.
Qed.
(** A point of a line. *)
Lemma on_the_line : forall l v, unit l -> to_the_right l v = 0 ->
  v = along l (dot (direction l) (minus v (point l))).
Proof.
  intros [[px py] [dx dy]] [x y] U Z. unfold unit, length2, to_the_right, along, plus, times, minus, dot in *. cbn in *.
  f_equal.
  - replace x with (px + (x - px) * (dx * dx + dy * dy)) at 1 by (rewrite U; ring).
    transitivity (px + dx * (dx * (x - px) + dy * (y - py)) + dy * (dy * (x - px) - dx * (y - py))); [ring | ].
    rewrite Z. ring.
  - replace y with (py + (y - py) * (dx * dx + dy * dy)) at 1 by (rewrite U; ring).
    transitivity (py + dy * (dx * (x - px) + dy * (y - py)) - dx * (dy * (x - px) - dx * (y - py))); [ring | ].
    rewrite Z. ring.
Qed.
Lemma along_right : forall l t, to_the_right l (along l t) = 0.
Proof. intros. unfold to_the_right, along, plus, times. cbn. ring. Qed.
Lemma along_other : forall l o t,
  to_the_right o (along l t) =
  t * cross (direction l) (direction o) - cross (direction o) (minus (point l) (point o)).
Proof. intros. unfold to_the_right, along, plus, times, cross, minus. cbn. ring. Qed.
Lemma along_length : forall l t, unit l ->
  length2 (along l t) = (t + dot (point l) (direction l)) * (t + dot (point l) (direction l))
                        + length2 (point l) - dot (point l) (direction l) * dot (point l) (direction l).
Proof.
  intros [[px py] [dx dy]] t U. unfold unit, length2, along, plus, times, dot in *. cbn in *.
  transitivity (px * px + py * py + 2 * t * (px * dx + py * dy) + t * t * (dx * dx + dy * dy)); [ring | ].
  rewrite U. ring.
Qed.
Lemma square_bound : forall x d, 0 <= d -> (x * x <= d <-> - sqrt d <= x <= sqrt d).
Proof.
  intros x d D. pose proof (sqrt_pos d). pose proof (sqrt_sqrt d D). split; intros.
  - split.
    + destruct (Rle_dec (- sqrt d) x); [assumption | ]. nra.
    + destruct (Rle_dec x (sqrt d)); [assumption | ]. nra.
  - nra.
Qed.

(** The bounds of the parameter along a line. *)
Lemma narrow_spec : forall l o lower upper, crisp (direction l) (direction o) -> lower <= upper ->
  match narrow l o (lower, upper) with
  | Some (a, b) => a <= b /\ forall t, a <= t <= b <-> lower <= t <= upper /\ left_of o (along l t)
  | None => forall t, lower <= t <= upper -> ~ left_of o (along l t)
  end.
Proof.
  intros l o lower upper C B. unfold narrow. cbn [fst snd].
  set (den := cross (direction l) (direction o)) in *.
  set (num := cross (direction o) (minus (point l) (point o))) in *.
  assert (E : forall t, left_of o (along l t) <-> t * den <= num).
  { intros t. rewrite left_right, along_other. fold den num. lra. }
  destruct (Rle_dec (Rabs den) orca_epsilon) as [P | P].
  - assert (Z : den = 0).
    { destruct C as [C | C]; [exact C | ]. change (1 / 100000 < Rabs den) in C. unfold orca_epsilon in P. lra. }
    destruct (Rlt_dec num 0) as [N | N].
    + intros t _ X. apply E in X. rewrite Z in X. lra.
    + split; [exact B | ]. intros t. rewrite E, Z. lra.
  - assert (NZ : den <> 0). { intros Z. apply P. rewrite Z, Rabs_R0. unfold orca_epsilon. lra. }
    assert (D : num / den * den = num) by (field; exact NZ).
    set (q := num / den) in *.
    destruct (Rle_dec 0 den) as [S | S]; cbn [fst snd].
    + destruct (Rlt_dec (Rmin upper q) lower) as [T | T].
      * intros t [L U] X. apply E in X. assert (t <= q) by nra.
        unfold Rmin in T. destruct (Rle_dec upper q); lra.
      * split; [lra | ]. intros t. rewrite E.
        assert (t * den <= num <-> t <= q) by (split; intros; nra).
        unfold Rmin in *. destruct (Rle_dec upper q); lra.
    + destruct (Rlt_dec upper (Rmax lower q)) as [T | T].
      * intros t [L U] X. apply E in X. assert (q <= t) by nra.
        unfold Rmax in T. destruct (Rle_dec lower q); lra.
      * split; [lra | ]. intros t. rewrite E.
        assert (t * den <= num <-> q <= t) by (split; intros; nra).
        unfold Rmax in *. destruct (Rle_dec lower q); lra.
Qed.
Lemma narrow_all_spec : forall l earlier lower upper,
  (forall o, In o earlier -> crisp (direction l) (direction o)) -> lower <= upper ->
  match narrow_all l earlier (lower, upper) with
  | Some (a, b) =>
      a <= b /\ forall t, a <= t <= b <-> lower <= t <= upper /\ forall o, In o earlier -> left_of o (along l t)
  | None => forall t, lower <= t <= upper -> ~ forall o, In o earlier -> left_of o (along l t)
  end.
Proof.
  intros l. induction earlier as [| o earlier IH]; intros lower upper C B; cbn [narrow_all].
  - split; [exact B | ]. intros t. split; [intros X; split; [exact X | intros o []] | tauto].
  - pose proof (narrow_spec l o lower upper (C o (or_introl eq_refl)) B) as N.
    destruct (narrow l o (lower, upper)) as [[a b] | ].
    + destruct N as [AB N]. specialize (IH a b (fun o I => C o (or_intror I)) AB).
      destruct (narrow_all l earlier (a, b)) as [[a' b'] | ].
      * destruct IH as [AB' IH]. split; [exact AB' | ]. intros t. rewrite IH, N. split.
        -- intros [[X Y] Z]. split; [exact X | ]. intros o' [<- | I]; auto.
        -- intros [X Y]. split; [split; [exact X | apply Y; left; reflexivity] | ].
           intros o' I. apply Y. right. exact I.
      * intros t T X. apply (IH t).
        -- apply N. split; [exact T | ]. apply X. left. reflexivity.
        -- intros o' I. apply X. right. exact I.
    + intros t T X. apply (N t T). apply X. left. reflexivity.
Qed.

(** Which of two velocities is better: nearer to the preferred one, or farther in its direction. *)
Definition better (align : bool) (preferred v w : vec) : Prop :=
  if align then dot preferred w <= dot preferred v else distance2 v preferred <= distance2 w preferred.
Lemma better_between : forall align preferred v w s, 0 <= s <= 1 -> better align preferred v w ->
  better align preferred (between v w s) w.
Proof.
  intros [|] p v w s B H; unfold better in *.
  - rewrite dot_between. apply mixed_below; [exact B | exact H | lra].
  - rewrite distance_between. pose proof (mixed s _ _ _ B H (Rle_refl (distance2 w p))).
    pose proof (distance_nonneg v w). assert (0 <= s * (1 - s)) by nra. nra.
Qed.
Lemma better_trans : forall align p a b c, better align p a b -> better align p b c -> better align p a c.
Proof. intros [|] p a b c; unfold better; lra. Qed.

Lemma on_line_spec : forall earlier l r preferred align,
  unit l -> (forall o, In o earlier -> crisp (direction l) (direction o)) ->
  match on_line earlier l r preferred align with
  | Some v =>
      allowed earlier r v /\ to_the_right l v = 0 /\
      forall w, allowed earlier r w -> to_the_right l w = 0 -> better align preferred v w
  | None => forall w, allowed earlier r w -> to_the_right l w <> 0
  end.
Proof.
  intros earlier l r preferred align U C. unfold on_line.
  set (q := dot (point l) (direction l)).
  set (disc := q * q + r * r - dot (point l) (point l)).
  assert (L : forall t, slow r (along l t) <-> (t + q) * (t + q) <= disc).
  { intros t. unfold slow. rewrite along_length by exact U. fold q. unfold disc, length2, dot. lra. }
  destruct (Rlt_dec disc 0) as [N | N].
  - intros w [W _] Z. rewrite (on_the_line l w U Z) in W. apply L in W.
    match type of W with ?x * ?x <= _ => pose proof (Rle_0_sqr x) as Q end. unfold Rsqr in Q. lra.
  - assert (L' : forall t, slow r (along l t) <-> - q - sqrt disc <= t <= - q + sqrt disc).
    { intros t. rewrite L, square_bound by lra. lra. }
    pose proof (sqrt_pos disc) as SP.
    pose proof (narrow_all_spec l earlier (- q - sqrt disc) (- q + sqrt disc) C ltac:(lra)) as S.
    destruct (narrow_all l earlier (- q - sqrt disc, - q + sqrt disc)) as [[a b] | ].
    + destruct S as [AB S].
      assert (A : forall t, a <= t <= b <-> allowed earlier r (along l t)).
      { intros t. rewrite S, <- L'. reflexivity. }
      match goal with |- allowed _ _ (plus _ (times _ ?t0)) /\ _ => set (t := t0) end.
      change (plus (point l) (times (direction l) t)) with (along l t).
      assert (T : a <= t <= b).
      { unfold t. repeat match goal with |- context [Rlt_dec ?x ?y] => destruct (Rlt_dec x y)
                         | |- context [if align then _ else _] => destruct align end; lra. }
      split; [apply A; exact T | split; [apply along_right | ]].
      intros w W Z. rewrite (on_the_line l w U Z) in W |- *.
      set (t' := dot (direction l) (minus w (point l))) in *. apply A in W.
      unfold better. destruct align.
      * assert (E : forall x, dot preferred (along l x) = dot preferred (point l) + x * dot preferred (direction l)).
        { intros x. unfold dot, along, plus, times. cbn. ring. }
        rewrite !E. destruct W as [WA WB]. unfold t.
        destruct (Rlt_dec 0 (dot preferred (direction l))); nra.
      * set (k := dot (direction l) (minus preferred (point l))) in *.
        assert (E : forall x, distance2 (along l x) preferred =
                  (x - k) * (x - k) + distance2 (point l) preferred - k * k).
        { intros x. unfold k. revert U. destruct l as [[px py] [dx dy]], preferred as [ex ey].
          unfold unit, length2, distance2, along, plus, times, dot, minus. cbn. intros U.
          transitivity ((px - ex) * (px - ex) + (py - ey) * (py - ey) - 2 * x * (dx * (ex - px) + dy * (ey - py))
                        + x * x * (dx * dx + dy * dy)); [ring | ]. rewrite U. ring. }
        rewrite !E. cut ((t - k) * (t - k) <= (t' - k) * (t' - k)); [lra | ].
        destruct W as [WA WB]. unfold t. destruct (Rlt_dec k a); [ | destruct (Rlt_dec b k)].
        -- apply Rmult_le_compat; lra.
        -- replace ((b - k) * (b - k)) with ((k - b) * (k - b)) by ring.
           replace ((t' - k) * (t' - k)) with ((k - t') * (k - t')) by ring. apply Rmult_le_compat; lra.
        -- replace ((k - k) * (k - k)) with 0 by ring. apply Rle_0_sqr.
    + intros w [W X] Z. rewrite (on_the_line l w U Z) in W, X.
      apply (S (dot (direction l) (minus w (point l)))); [apply L'; exact W | exact X].
Qed.

(** The search over all lines. *)
Definition best (lines : list line) (r : R) (align : bool) (preferred v : vec) : Prop :=
  allowed lines r v /\ forall w, allowed lines r w -> better align preferred v w.

Lemma allowed_weaken : forall l earlier r v, allowed (earlier ++ [l]) r v -> allowed earlier r v /\ left_of l v.
Proof.
  intros l earlier r v [S A]. split.
  - split; [exact S | ]. intros o I. apply A, in_or_app. left. exact I.
  - apply A, in_or_app. right. left. reflexivity.
Qed.
Lemma allowed_add : forall l earlier r v, allowed earlier r v -> left_of l v -> allowed (earlier ++ [l]) r v.
Proof.
  intros l earlier r v [S A] L. split; [exact S | ].
  intros o I. apply in_app_or in I as [I | [<- | []]]; auto.
Qed.
Lemma allowed_between : forall lines r v w s, 0 <= s <= 1 -> allowed lines r v -> allowed lines r w ->
  allowed lines r (between v w s).
Proof.
  intros lines r v w s B [SV V] [SW W]. split; [apply slow_between; assumption | ].
  intros l I. apply left_right. rewrite right_between.
  apply mixed; [exact B | apply left_right, V, I | apply left_right, W, I].
Qed.

Lemma crisp_lines_app : forall a b, crisp_lines (a ++ b) -> crisp_lines a.
Proof.
  intros a b [U C]. split.
  - intros l I. apply U, in_or_app. auto.
  - intros x y X Y. apply C; apply in_or_app; auto.
Qed.

Lemma first_all : forall {A} (a b : list A), firstn (length a) (a ++ b) = a.
Proof. intros A a b. rewrite firstn_app, Nat.sub_diag, firstn_all. cbn. apply app_nil_r. Qed.
Lemma satisfy_spec : forall rest earlier r preferred align result,
  crisp_lines (earlier ++ rest) -> best earlier r align preferred result ->
  let (n, v) := satisfy earlier rest r preferred align result in
  (n = length (earlier ++ rest) /\ best (earlier ++ rest) r align preferred v) \/
  ((n < length (earlier ++ rest))%nat /\ best (firstn n (earlier ++ rest)) r align preferred v /\
   forall w, ~ allowed (firstn (S n) (earlier ++ rest)) r w).
Proof.
  induction rest as [| l rest IH]; intros earlier r preferred align result C B; cbn [satisfy].
  - left. rewrite app_nil_r. auto.
  - assert (E : earlier ++ l :: rest = (earlier ++ [l]) ++ rest) by (rewrite <- app_assoc; reflexivity).
    assert (C' : crisp_lines ((earlier ++ [l]) ++ rest)) by (rewrite <- E; exact C).
    assert (U : unit l) by (apply (proj1 C), in_or_app; right; left; reflexivity).
    assert (K : forall o, In o earlier -> crisp (direction l) (direction o)).
    { intros o I. apply (proj2 C); apply in_or_app; [right; left; reflexivity | left; exact I]. }
    rewrite violation_right. destruct (Rlt_dec 0 (to_the_right l result)) as [V | V].
    + assert (X : forall w, allowed (earlier ++ [l]) r w ->
                  exists w', allowed earlier r w' /\ to_the_right l w' = 0 /\ better align preferred w' w).
      { intros w W. apply allowed_weaken in W as [W L]. apply left_right in L.
        destruct (reaches l result w 0 L V) as (s & BS & Z).
        exists (between result w s). split; [apply allowed_between; [exact BS | apply B | exact W] | ].
        split; [exact Z | ]. apply better_between; [exact BS | apply B, W]. }
      pose proof (on_line_spec earlier l r preferred align U K) as O.
      destruct (on_line earlier l r preferred align) as [v | ].
      * destruct O as (A & Z & O). rewrite E. apply IH; [exact C' | ]. split.
        -- apply allowed_add; [exact A | ]. apply left_right. lra.
        -- intros w W. destruct (X w W) as (w' & W' & Z' & G). exact (better_trans align preferred v w' w (O w' W' Z') G).
      * right. rewrite E, !app_length. cbn [length]. split; [lia | ]. split.
        -- rewrite <- E, first_all. exact B.
        -- intros w W. replace (S (length earlier)) with (length (earlier ++ [l])) in W by (rewrite app_length; cbn; lia).
           rewrite first_all in W. destruct (X w W) as (w' & W' & Z' & _). exact (O w' W' Z').
    + rewrite E. apply IH; [exact C' | ]. split.
      * apply allowed_add; [apply B | ]. apply left_right. lra.
      * intros w W. apply B. apply allowed_weaken in W. tauto.
Qed.

Lemma dot_length : forall v, dot v v = length2 v.
Proof. reflexivity. Qed.
Lemma cauchy : forall a b, dot a b * dot a b <= length2 a * length2 b.
Proof.
  intros [ax ay] [bx b_y]. unfold dot, length2. cbn.
  pose proof (sq (ax * b_y - ay * bx)). lra.
Qed.
Lemma tiny_positive : 0 < tiny.
Proof. unfold tiny. apply Rinv_0_lt_compat. apply pow_lt. lra. Qed.
Lemma tiny_small : tiny < 1 / 100000.
Proof.
  unfold tiny. replace (1 / 100000) with (/ 100000) by field.
  apply Rinv_lt_contravar; [ | change 52%nat with (17 + 35)%nat; rewrite pow_add; assert (1 <= 2 ^ 35) by (apply pow_R1_Rle; lra); lra].
  assert (0 < 2 ^ 52) by (apply pow_lt; lra). lra.
Qed.
Lemma normalize_spec : forall a, tiny * tiny < length2 a ->
  normalize a = Some (Vec (vx a / sqrt (length2 a)) (vy a / sqrt (length2 a))).
Proof.
  intros a H. unfold normalize. rewrite dot_length. pose proof tiny_positive as T.
  destruct (Rle_dec (Rabs (sqrt (length2 a))) tiny) as [L | L]; [ | reflexivity]. exfalso.
  rewrite Rabs_pos_eq in L by apply sqrt_pos. pose proof (sqrt_pos (length2 a)).
  assert (S : sqrt (length2 a) * sqrt (length2 a) = length2 a) by (apply sqrt_sqrt, length_nonneg). nra.
Qed.
Lemma normalize_unit : forall a u, normalize a = Some u -> length2 u = 1.
Proof.
  intros a u. unfold normalize. rewrite dot_length. destruct (Rle_dec (Rabs (sqrt (length2 a))) tiny) as [L | L]; [discriminate | ].
  intros [= <-]. rewrite Rabs_pos_eq in L by apply sqrt_pos. pose proof tiny_positive.
  assert (N : sqrt (length2 a) <> 0) by lra.
  assert (S : sqrt (length2 a) * sqrt (length2 a) = length2 a) by (apply sqrt_sqrt, length_nonneg).
  set (n := sqrt (length2 a)) in *.
  transitivity (length2 a * (/ n * / n)); [unfold length2, times; cbn; ring | ].
  rewrite <- S. field. exact N.
Qed.

Lemma start_near : forall r preferred, tiny <= r ->
  exists v, start r preferred false = Some v /\ best [] r false preferred v.
Proof.
  intros r p T. pose proof tiny_positive as TP. unfold start. rewrite dot_length.
  destruct (Rlt_dec (r * r) (length2 p)) as [L | L].
  - rewrite normalize_spec by nra. eexists. split; [reflexivity | ].
    set (n := sqrt (length2 p)).
    assert (S : n * n = length2 p) by (apply sqrt_sqrt, length_nonneg).
    assert (N : 0 <= n) by apply sqrt_pos.
    assert (RN : r < n) by nra. assert (NZ : n <> 0) by lra.
    assert (Q : forall w, distance2 w p = length2 w - 2 * dot p w + n * n).
    { intros w. rewrite S. unfold distance2, length2, dot. ring. }
    assert (Len : length2 (times (Vec (vx p / n) (vy p / n)) r) = r * r).
    { transitivity (length2 p * (r / n) * (r / n)); [unfold length2, times; cbn; field; exact NZ | ].
      rewrite <- S. field. exact NZ. }
    assert (Dot : dot p (times (Vec (vx p / n) (vy p / n)) r) = r * n).
    { transitivity (length2 p * (r / n)); [unfold length2, dot, times; cbn; field; exact NZ | ].
      rewrite <- S. field. exact NZ. }
    split; [split; [unfold slow; rewrite Len; lra | intros l []] | ].
    intros w [W _]. unfold better. rewrite !Q, Len, Dot. unfold slow in W.
    pose proof (cauchy p w) as CS. rewrite <- S in CS.
    set (m := sqrt (length2 w)).
    assert (WN : 0 <= length2 w) by apply length_nonneg.
    assert (M : m * m = length2 w) by (apply sqrt_sqrt; exact WN).
    assert (MP : 0 <= m) by apply sqrt_pos.
    assert (MR : m <= r) by nra.
    assert (DM : dot p w <= n * m).
    { destruct (Rle_dec (dot p w) (n * m)) as [G | G]; [exact G | exfalso].
      assert (NM : 0 <= n * m) by nra. rewrite <- M in CS.
      assert (n * m * (n * m) < dot p w * dot p w) by nra. nra. }
    rewrite <- M. nra.
  - eexists. split; [reflexivity | ]. split; [split; [unfold slow; lra | intros l []] | ].
    intros w _. unfold better.
    replace (distance2 p p) with 0 by (unfold distance2; ring). apply distance_nonneg.
Qed.
Lemma start_far : forall r preferred, 0 <= r -> length2 preferred = 1 ->
  exists v, start r preferred true = Some v /\ best [] r true preferred v.
Proof.
  intros r p R U. unfold start. eexists. split; [reflexivity | ]. split.
  - split; [ | intros l []]. unfold slow. replace (length2 (times p r)) with (length2 p * (r * r))
      by (unfold length2, times; cbn; ring). rewrite U. lra.
  - intros w [W _]. unfold better.
    replace (dot p (times p r)) with (length2 p * r) by (unfold length2, dot, times; cbn; ring).
    rewrite U. unfold slow in W. pose proof (cauchy p w) as CS. rewrite U in CS.
    destruct (Rle_dec (dot p w) (1 * r)) as [G | G]; [exact G | exfalso]. nra.
Qed.

(** Lines where two violations are equal. *)
Lemma parallel : forall a b, length2 a = 1 -> length2 b = 1 -> cross a b = 0 ->
  (0 < dot a b /\ b = a) \/ (dot a b < 0 /\ b = times a (-1)).
Proof.
  intros [ax ay] [bx b_y] A B Z. unfold length2, cross, dot, times in *. cbn in *.
  assert (X : bx = ax * (ax * bx + ay * b_y)).
  { transitivity (bx * (ax * ax + ay * ay) + ay * (ax * b_y - ay * bx)); [rewrite A, Z; ring | ring]. }
  assert (Y : b_y = ay * (ax * bx + ay * b_y)).
  { transitivity (b_y * (ax * ax + ay * ay) - ax * (ax * b_y - ay * bx)); [rewrite A, Z; ring | ring]. }
  set (k := ax * bx + ay * b_y) in *.
  assert (K : k * k = 1).
  { rewrite X, Y in B. transitivity (k * k * (ax * ax + ay * ay)); [rewrite A; ring | rewrite <- B; ring]. }
  assert (KK : k = 1 \/ k = -1).
  { destruct (Rle_dec 0 k); [left | right]; nra. }
  destruct KK as [-> | ->]; [left | right]; (split; [lra | ]); rewrite X, Y; f_equal; ring.
Qed.

Lemma projected_spec : forall i j, unit i -> unit j -> crisp (direction i) (direction j) ->
  (direction j = direction i /\ projected i j = Some []) \/
  (direction j <> direction i /\
   exists p k, projected i j = Some [Line p (bisector (direction i) (direction j))] /\ 0 < k /\
     length2 (bisector (direction i) (direction j)) = 1 /\
     forall v, k * to_the_right (Line p (bisector (direction i) (direction j))) v
               = to_the_right j v - to_the_right i v).
Proof.
  intros i j UI UJ C. unfold projected.
  set (a := direction i) in *. set (b := direction j) in *.
  set (d := minus b a).
  (* the length of the difference *)
  assert (Main : forall p, tiny * tiny < length2 d ->
     (forall v, (vy b - vy a) * (vx v - vx p) - (vx b - vx a) * (vy v - vy p) = to_the_right j v - to_the_right i v) ->
     exists p0 k,
       match normalize d with None => None | Some d => Some [Line p d] end = Some [Line p0 (bisector a b)] /\ 0 < k /\
       length2 (bisector a b) = 1 /\
       forall v, k * to_the_right (Line p0 (bisector a b)) v = to_the_right j v - to_the_right i v).
  { intros p L V. pose proof (normalize_spec d L) as N. exists p, (sqrt (length2 d)).
    change (Vec (vx d / sqrt (length2 d)) (vy d / sqrt (length2 d))) with (bisector a b) in N.
    rewrite N. split; [reflexivity | ].
    assert (P : 0 < sqrt (length2 d)). { apply sqrt_lt_R0. pose proof tiny_positive. nra. }
    split; [exact P | ]. split; [exact (normalize_unit _ _ N) | ].
    intros v. rewrite <- V. unfold to_the_right. cbn [direction point].
    change (vx (bisector a b)) with ((vx b - vx a) / sqrt (length2 d)).
    change (vy (bisector a b)) with ((vy b - vy a) / sqrt (length2 d)). field. lra. }
  destruct (Rle_dec (Rabs (cross a b)) orca_epsilon) as [P | P].
  - assert (Z : cross a b = 0).
    { destruct C as [C | C]; [exact C | ]. change (1 / 100000 < Rabs (cross a b)) in C. unfold orca_epsilon in P. lra. }
    destruct (parallel a b UI UJ Z) as [[S E] | [S E]].
    + left. split; [exact E | ]. destruct (Rlt_dec 0 (dot a b)); [reflexivity | lra].
    + right. destruct (Rlt_dec 0 (dot a b)); [lra | ].
      assert (UA : length2 a = 1) by exact UI.
      assert (L : length2 d = 4).
      { unfold d. rewrite E. transitivity (4 * length2 a); [unfold length2, minus, times; cbn; ring | rewrite UA; ring]. }
      split.
      * intros F. rewrite F in S. rewrite dot_length, UA in S. lra.
      * apply Main.
        -- rewrite L. pose proof tiny_positive. pose proof tiny_small. nra.
        -- intros v. unfold to_the_right. fold a b. rewrite E. unfold times, plus. cbn. lra.
  - right. assert (NZ : cross a b <> 0).
    { intros Z. apply P. rewrite Z, Rabs_R0. unfold orca_epsilon. lra. }
    split.
    + intros F. apply NZ. rewrite F. unfold cross. ring.
    + assert (UA : length2 a = 1) by exact UI.
      apply Main.
      * assert (Cr : cross a d = cross a b). { unfold d, cross, minus. cbn. ring. }
        assert (CS : cross a d * cross a d <= length2 a * length2 d).
        { replace (cross a d) with (dot a (Vec (vy d) (- vx d))) by (unfold dot, cross; cbn; ring).
          replace (length2 d) with (length2 (Vec (vy d) (- vx d))) by (unfold length2; cbn; ring).
          apply cauchy. }
        rewrite UA, Cr in CS. assert (T : tiny < Rabs (cross a b)).
        { pose proof tiny_small. unfold orca_epsilon in P. lra. }
        pose proof tiny_positive.
        assert (Rabs (cross a b) * Rabs (cross a b) = cross a b * cross a b).
        { rewrite <- Rabs_mult. apply Rabs_pos_eq, sq. }
        nra.
      * intros v. unfold to_the_right. fold a b. unfold plus, times, cross, minus in *. cbn. field. exact NZ.
Qed.

Lemma projections_spec : forall i earlier, unit i ->
  (forall j, In j earlier -> unit j /\ crisp (direction i) (direction j)) ->
  exists lines, projections i earlier = Some lines /\
    (forall l, In l lines -> unit l /\ exists j, In j earlier /\ direction j <> direction i /\
                                         direction l = bisector (direction i) (direction j)) /\
    (forall v, (forall l, In l lines -> left_of l v) <->
               forall j, In j earlier -> direction j <> direction i -> to_the_right j v <= to_the_right i v).
Proof.
  intros i earlier U. induction earlier as [| j earlier IH]; intros H; cbn [projections].
  - exists []. split; [reflexivity | ]. split; [intros l [] | ]. intros v. split; intros; contradiction.
  - destruct (H j (or_introl eq_refl)) as [UJ C].
    destruct (IH (fun o I => H o (or_intror I))) as (ls & -> & A & B).
    destruct (projected_spec i j U UJ C) as [[E ->] | (E & p & k & -> & K & UL & V)].
    + exists ls. split; [reflexivity | ]. split.
      * intros l I. destruct (A l I) as (UL & j' & J & R). split; [exact UL | exists j'; split; [right; exact J | exact R]].
      * intros v. rewrite B. split.
        -- intros X j' [<- | J] D; [contradiction | auto].
        -- intros X j' J D. apply X; [right; exact J | exact D].
    + exists (Line p (bisector (direction i) (direction j)) :: ls). split; [reflexivity | ]. split.
      * intros l [<- | I]; [split; [exact UL | exists j; split; [left; reflexivity | split; [exact E | reflexivity]]] | ].
        destruct (A l I) as (UL' & j' & J & R). split; [exact UL' | exists j'; split; [right; exact J | exact R]].
      * intros v. assert (Q : left_of (Line p (bisector (direction i) (direction j))) v <-> to_the_right j v <= to_the_right i v).
        { rewrite left_right. specialize (V v). split; intros; nra. }
        split.
        -- intros X j' [<- | J] D; [apply Q, X; left; reflexivity | ].
           apply B; [intros l I; apply X; right; exact I | exact J | exact D].
        -- intros X l [<- | I]; [apply Q, X; [left; reflexivity | exact E] | ].
           apply B; [intros j' J D; apply X; [right; exact J | exact D] | exact I].
Qed.

Lemma same_direction : forall i j v w, direction j = direction i ->
  to_the_right j v - to_the_right i v = to_the_right j w - to_the_right i w.
Proof. intros i j v w E. unfold to_the_right. rewrite E. ring. Qed.

Lemma resolve_spec : forall rest earlier r distance result,
  0 <= r -> crisp_lines (earlier ++ rest) -> crisp_bisectors (earlier ++ rest) -> slow r result ->
  (forall j, In j earlier -> to_the_right j result <= distance) ->
  (forall w b, slow r w -> 0 <= b -> (forall j, In j earlier -> to_the_right j w <= b) -> distance <= b) ->
  exists v, resolve earlier rest r distance result = Some v /\ slow r v /\
    forall w b, slow r w -> 0 <= b -> (forall l, In l (earlier ++ rest) -> to_the_right l w <= b) ->
      forall l, In l (earlier ++ rest) -> to_the_right l v <= b.
Proof.
  induction rest as [| i rest IH]; intros earlier r distance result R C CB SR D M; cbn [resolve].
  - exists result. split; [reflexivity | split; [exact SR | ]]. rewrite app_nil_r.
    intros w b W B X l I. eapply Rle_trans; [apply D, I | apply (M w b W B X)].
  - assert (E : earlier ++ i :: rest = (earlier ++ [i]) ++ rest) by (rewrite <- app_assoc; reflexivity).
    assert (II : In i (earlier ++ i :: rest)) by (apply in_or_app; right; left; reflexivity).
    assert (IE : forall j, In j earlier -> In j (earlier ++ i :: rest)) by (intros; apply in_or_app; left; assumption).
    assert (U : unit i) by (apply (proj1 C), II).
    rewrite violation_right. destruct (Rlt_dec distance (to_the_right i result)) as [V | V].
    + destruct (projections_spec i earlier U) as (ls & -> & A & B).
      { intros j J. split; [apply (proj1 C), IE, J | apply (proj2 C); [exact II | apply IE, J]]. }
      assert (CL : crisp_lines ls).
      { split; [intros l I; apply A, I | ]. intros x y X Y.
        destruct (A x X) as (_ & jx & JX & NX & ->). destruct (A y Y) as (_ & jy & JY & NY & ->).
        apply (CB i jx jy); auto. }
      set (normal := Vec (- vy (direction i)) (vx (direction i))).
      assert (UN : length2 normal = 1).
      { unfold normal, length2. cbn. unfold unit, length2 in U. lra. }
      destruct (start_far r normal R UN) as (s & Es & Bs).
      unfold solve. rewrite Es. pose proof (satisfy_spec ls [] r normal true s CL Bs) as S. cbn [app] in S.
      assert (FR : allowed ls r result).
      { split; [exact SR | ]. apply B. intros j J _. specialize (D j J). lra. }
      destruct (satisfy [] ls r normal true s) as [n v].
      destruct S as [[-> [AV BV]] | (L & _ & X)].
      * rewrite Nat.ltb_irrefl. rewrite violation_right. rewrite E.
        assert (N : forall x, dot normal x = cross (direction i) (point i) - to_the_right i x).
        { intros x. unfold dot, normal, cross, to_the_right. cbn. ring. }
        assert (BV' : forall w, allowed ls r w -> to_the_right i v <= to_the_right i w).
        { intros w W. specialize (BV w W). unfold better in BV. rewrite !N in BV. lra. }
        (* lines with the same direction *)
        assert (DV : forall j, In j earlier -> to_the_right j v <= to_the_right i v).
        { intros j J. destruct (Req_EM_T (vx (direction j)) (vx (direction i))) as [X | X];
            [destruct (Req_EM_T (vy (direction j)) (vy (direction i))) as [Y | Y] | ].
          - assert (Ed : direction j = direction i) by (destruct (direction j), (direction i); cbn in *; congruence).
            pose proof (same_direction i j v result Ed). specialize (D j J). lra.
          - apply B; [apply AV | exact J | congruence].
          - apply B; [apply AV | exact J | congruence]. }
        assert (SV : slow r v) by apply AV.
        apply IH; try assumption.
        -- rewrite <- E. exact C.
        -- rewrite <- E. exact CB.
        -- intros j J. apply in_app_or in J as [J | [<- | []]]; [apply DV, J | lra].
        -- intros w b W Bb X.
           assert (Xe : forall j, In j earlier -> to_the_right j w <= b) by (intros; apply X, in_or_app; auto).
           assert (Xi : to_the_right i w <= b) by (apply X, in_or_app; right; left; reflexivity).
           pose proof (M w b W Bb Xe) as DB.
           destruct (Rle_dec (to_the_right i result) b) as [Q | Q].
           ++ eapply Rle_trans; [apply BV', FR | exact Q].
           ++ destruct (reaches i result w b Xi ltac:(lra)) as (t & T & Z).
              rewrite <- Z. apply BV'. split; [apply slow_between; assumption | ].
              apply B. intros j J _. rewrite Z, right_between. apply mixed; [exact T | | apply Xe, J].
              specialize (D j J). lra.
      * exfalso. apply (X result). destruct FR as [F1 F2]. split; [exact F1 | ].
        intros l I. apply F2. rewrite <- (firstn_skipn (S n) ls). apply in_or_app. left. exact I.
    + rewrite E. apply IH; try assumption.
      * rewrite <- E. exact C.
      * rewrite <- E. exact CB.
      * intros j J. apply in_app_or in J as [J | [<- | []]]; [apply D, J | lra].
      * intros w b W Bb X. apply (M w b W Bb). intros j J. apply X, in_or_app. left. exact J.
Qed.
