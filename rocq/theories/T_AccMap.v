(** Theorems about the acceleration map of the ego entity (C152). *)
From Coq Require Import Reals List ZArith Bool Lra Lia Psatz.
From Verif Require Import M_Vehicle S_AccMap P_Vehicle.
Import ListNotations.
Open Scope R_scope.

Lemma increasing_tail : forall a l, increasing (a :: l) = true -> increasing l = true.
Proof. intros a [| b l] H; [reflexivity |]. cbn in H. apply andb_true_iff in H. apply H. Qed.

Lemma increasing_above : forall l a, increasing (a :: l) = true -> forall b, In b l -> a < b.
Proof.
  induction l as [| c l IH]; intros a H b I; [destruct I |].
  cbn [increasing] in H. apply andb_true_iff in H. destruct H as [A B]. apply below_true in A.
  destruct I as [<- | I]; [exact A |]. apply Rlt_trans with c; [exact A | now apply IH].
Qed.

Lemma increasing_ascending : forall l, increasing l = true <-> ascending l.
Proof.
  induction l as [| a l IH]; [split; [intros _ [| i] j a b E; discriminate | reflexivity] |]. split.
  - intros H i j x y I J L. destruct j as [| j]; [lia |]. cbn in J. destruct i as [| i].
    + injection I as <-. apply (increasing_above l a H). eapply nth_error_In, J.
    + apply (proj1 IH (increasing_tail a l H) i j x y I J). lia.
  - intros H. destruct l as [| b l]; [reflexivity |]. change (below a b && increasing (b :: l) = true). apply andb_true_iff. split.
    + apply below_true. now apply (H 0%nat 1%nat a b); [| | lia].
    + apply IH. intros i j x y I J L. apply (H (S i) (S j) x y I J). lia.
Qed.

Lemma last_above : forall l a, increasing (a :: l) = true -> a <= last (a :: l) 0.
Proof.
  induction l as [| b l IH]; intros a H; [apply Rle_refl |].
  change (last (a :: b :: l) 0) with (last (b :: l) 0).
  apply Rle_trans with b; [| apply IH; now apply increasing_tail in H].
  apply Rlt_le, (increasing_above (b :: l) a H). now left.
Qed.

Lemma on_line_tail : forall a b keys values q r, on_line keys values q r -> on_line (a :: keys) (b :: values) q r.
Proof. intros a b keys values q r (i & H). exists (S i). exact H. Qed.

Lemma search_line : forall keys values q, increasing keys = true -> List.length keys = List.length values ->
  (2 <= List.length keys)%nat -> hd 0 keys <= q <= last keys 0 ->
  exists r, lerp_search keys values q = Some r /\ on_line keys values q r.
Proof.
  induction keys as [| k0 keys IH]; intros values q I L N Q; [cbn in N; lia |].
  destruct keys as [| k1 keys]; [cbn in N; lia |]. destruct values as [| v0 [| v1 values]]; try discriminate.
  assert (k0 < k1) as K by (apply (increasing_above _ _ I); now left).
  cbn [lerp_search hd] in *. destruct (below k1 q) eqn:B.
  - apply below_true in B. destruct keys as [| k2 keys].
    { cbn in Q. lra. }
    destruct (IH (v1 :: values) q) as (r & R & O).
    + now apply increasing_tail in I.
    + cbn in L |- *. lia.
    + cbn. lia.
    + cbn [hd]. change (last (k0 :: k1 :: k2 :: keys) 0) with (last (k1 :: k2 :: keys) 0) in Q. lra.
    + exists r. split; [exact R | now apply on_line_tail].
  - apply below_false in B. eexists. split; [reflexivity |].
    exists 0%nat, k0, k1, v0, v1. repeat (split; [reflexivity |]). split; [lra |]. split; [exact K |].
    field. lra.
Qed.

Lemma hd_below_last : forall l, increasing l = true -> hd 0 l <= last l 0.
Proof. intros [| a l] H; [apply Rle_refl | now apply last_above]. Qed.

(** Interpolation is defined for well-formed tables and queries hardly outside, and yields the line
    between the neighbouring entries. *)
Theorem C152_line : forall keys values q,
  (2 <= List.length keys)%nat -> List.length values = List.length keys -> ascending keys ->
  hd 0 keys - / 1000 <= q <= last keys 0 + / 1000 ->
  exists r, lerp keys values q = Some r /\ on_line keys values (nearest_key keys q) r.
Proof.
  intros keys values q N L A Q. apply increasing_ascending in A. unfold lerp.
  assert ((List.length keys <? 2)%nat = false) as -> by (apply Nat.ltb_ge; lia).
  rewrite A. cbn [negb]. unfold key_epsilon, first_key, last_key.
  assert (below q (hd 0 keys - / 1000) = false) as -> by (apply below_false; lra).
  assert (below (last keys 0 + / 1000) q = false) as -> by (apply below_false; lra). cbn [orb].
  assert ((List.length values <? 2)%nat = false) as -> by (apply Nat.ltb_ge; lia).
  rewrite L, Nat.eqb_refl. cbn [negb]. apply search_line; auto.
  pose proof (hd_below_last keys A) as H. split; [| apply Rmin_r].
  apply Rmin_glb; [apply Rmax_r | exact H].
Qed.

(** Otherwise there is an exception. *)
Theorem C152_refused : forall keys values q r, lerp keys values q = Some r ->
  (2 <= List.length keys)%nat /\ List.length values = List.length keys /\ ascending keys /\
  hd 0 keys - / 1000 <= q <= last keys 0 + / 1000.
Proof.
  intros keys values q r. unfold lerp, key_epsilon, first_key, last_key.
  destruct (List.length keys <? 2)%nat eqn:N; [discriminate |]. apply Nat.ltb_ge in N.
  destruct (increasing keys) eqn:I; [| discriminate]. cbn [negb].
  destruct (below q (hd 0 keys - / 1000)) eqn:B1; [discriminate |].
  destruct (below (last keys 0 + / 1000) q) eqn:B2; [discriminate |]. cbn [orb].
  destruct (List.length values <? 2)%nat; [discriminate |].
  destruct (List.length keys =? List.length values)%nat eqn:E; [| discriminate]. intros _.
  apply Nat.eqb_eq in E. apply increasing_ascending in I. apply below_false in B1. apply below_false in B2. auto.
Qed.

Lemma line_at_node : forall keys values i k v r, ascending keys -> nth_error keys i = Some k ->
  nth_error values i = Some v -> on_line keys values k r -> r = v.
Proof.
  intros keys values i k v r A K V (j & k0 & k1 & v0 & v1 & K0 & K1 & V0 & V1 & Q & P & E).
  destruct (Nat.lt_trichotomy i j) as [C | [C | C]].
  - pose proof (A i j k k0 K K0 C). lra.
  - subst j. assert (k0 = k) as -> by congruence. assert (v0 = v) as -> by congruence.
    replace (k - k) with 0 in E by ring. nra.
  - destruct (Nat.lt_trichotomy i (S j)) as [D | [D | D]]; [lia | |].
    + subst i. assert (k1 = k) as -> by congruence. assert (v1 = v) as -> by congruence. nra.
    + pose proof (A (S j) i k1 k K1 K D). lra.
Qed.

Lemma key_inside : forall keys i k, ascending keys -> nth_error keys i = Some k -> hd 0 keys <= k <= last keys 0.
Proof.
  intros keys i k A K. pose proof (proj2 (increasing_ascending keys) A) as I.
  assert (i < List.length keys)%nat as L by (apply nth_error_Some; congruence). split.
  - destruct keys as [| a keys]; [cbn in L; lia |]. cbn [hd]. destruct i as [| i]; [injection K as <-; lra |].
    apply Rlt_le. apply (A 0%nat (S i) a k eq_refl K). lia.
  - clear A. revert keys K I L. induction i as [| i IH]; intros [| a keys] K I L; try (cbn in L; lia).
    + injection K as <-. now apply last_above.
    + cbn in K. destruct keys as [| b keys]; [destruct i; discriminate |].
      change (last (a :: b :: keys) 0) with (last (b :: keys) 0).
      apply IH; [exact K | now apply increasing_tail in I | cbn in L |- *; lia].
Qed.

Lemma nearest_inside : forall keys q, hd 0 keys <= q <= last keys 0 -> nearest_key keys q = q.
Proof. intros keys q H. unfold nearest_key. rewrite Rmax_left by lra. apply Rmin_left. lra. Qed.

(** At an entry the value of the entry is found. *)
Theorem C152_entry : forall keys values i k v,
  (2 <= List.length keys)%nat -> List.length values = List.length keys -> ascending keys ->
  nth_error keys i = Some k -> nth_error values i = Some v -> lerp keys values k = Some v.
Proof.
  intros keys values i k v N L A K V. pose proof (key_inside keys i k A K) as Q.
  destruct (C152_line keys values k N L A ltac:(lra)) as (r & R & O). rewrite nearest_inside in O by exact Q.
  now rewrite R, (line_at_node keys values i k v r A K V O).
Qed.

Lemma least_hd : forall l a, (forall b, In b l -> a <= b) -> fold_left Rmin l a = a.
Proof.
  induction l as [| b l IH]; intros a H; [reflexivity |]. cbn [fold_left].
  rewrite Rmin_left by (apply H; now left). apply IH. intros c I. apply H. now right.
Qed.

Lemma least_first : forall l, increasing l = true -> least_of l = hd 0 l.
Proof.
  intros [| a l] H; [reflexivity |]. unfold least_of. cbn [hd]. apply least_hd. intros b [<- | I]; [lra |].
  apply Rlt_le. now apply (increasing_above l a H).
Qed.

Lemma greatest_last : forall l a, increasing (a :: l) = true -> fold_left Rmax l a = last (a :: l) 0.
Proof.
  induction l as [| b l IH]; intros a H; [reflexivity |]. cbn [fold_left].
  rewrite Rmax_right by (apply Rlt_le, (increasing_above _ _ H); now left).
  rewrite IH; [reflexivity | now apply increasing_tail in H].
Qed.

Lemma greatest_is_last : forall l, increasing l = true -> greatest_of l = last l 0.
Proof.
  intros [| a l] H; [reflexivity |]. unfold greatest_of. cbn [hd fold_left]. rewrite Rmax_left by lra. now apply greatest_last.
Qed.

Lemma clamp_nearest : forall l v, increasing l = true -> clamp_value v l = nearest_key l v.
Proof.
  intros l v H. unfold clamp_value, nearest_key. rewrite least_first, greatest_is_last by exact H.
  pose proof (hd_below_last l H) as O. destruct (below v (hd 0 l)) eqn:A; [reflexivity |].
  destruct (below (last l 0) v) eqn:B; [reflexivity |]. cbn [orb]. apply below_false in A. apply below_false in B.
  rewrite Rmax_left by lra. rewrite Rmin_left; lra.
Qed.

Lemma nearest_range : forall keys q, ascending keys -> hd 0 keys <= nearest_key keys q <= last keys 0.
Proof.
  intros keys q A. apply increasing_ascending in A. pose proof (hd_below_last keys A) as O.
  unfold nearest_key. split; [| apply Rmin_r]. apply Rmin_glb; [apply Rmax_r | exact O].
Qed.

Lemma rows_defined : forall vel_index rows q, (2 <= List.length vel_index)%nat -> ascending vel_index ->
  (forall row, In row rows -> List.length row = List.length vel_index) ->
  hd 0 vel_index <= q <= last vel_index 0 ->
  exists column, rows_at vel_index rows q = Some column /\ Forall2 (fun row a => on_line vel_index row q a) rows column.
Proof.
  intros vel_index rows q N A L Q. induction rows as [| row rows IH]; [exists []; split; [reflexivity | constructor] |].
  destruct (C152_line vel_index row q N (L row (or_introl eq_refl)) A ltac:(lra)) as (a & E & O).
  rewrite nearest_inside in O by exact Q.
  destruct IH as (column & C & F). { intros r I. apply L. now right. }
  exists (a :: column). cbn [rows_at]. rewrite E, C. split; [reflexivity | now constructor].
Qed.

Lemma Forall2_len : forall (A B : Type) (P : A -> B -> Prop) l m, Forall2 P l m -> List.length l = List.length m.
Proof. induction 1; cbn; congruence. Qed.

(** With a usable table every request is answered: by the line between two accelerations of the line
    between two speeds, at the nearest speed and acceleration of the table. *)
Theorem C152_acceleration : forall speeds accelerations rows desired speed,
  usable speeds accelerations rows ->
  exists column r, get_acceleration speeds accelerations rows desired speed = Some r /\
    Forall2 (fun row a => on_line speeds row (nearest_key speeds speed) a) rows column /\
    on_line accelerations column (nearest_key accelerations desired) r.
Proof.
  intros speeds accelerations rows desired speed (N1 & N2 & A1 & A2 & L & R).
  unfold get_acceleration. rewrite !clamp_nearest by now apply increasing_ascending.
  destruct (rows_defined speeds rows (nearest_key speeds speed) N1 A1 R (nearest_range _ _ A1)) as (column & C & F).
  rewrite C. pose proof (nearest_range accelerations desired A2) as Q.
  destruct (C152_line accelerations column (nearest_key accelerations desired) N2) as (r & E & O); auto.
  { rewrite <- (Forall2_len _ _ _ _ _ F). exact L. }
  { lra. }
  exists column, r. rewrite nearest_inside in O by exact Q. auto.
Qed.

(** At the speeds and accelerations of the table the entries are found. *)
Theorem C152_entries : forall speeds accelerations rows i j speed desired row r,
  usable speeds accelerations rows ->
  nth_error accelerations i = Some desired -> nth_error speeds j = Some speed ->
  nth_error rows i = Some row -> nth_error row j = Some r ->
  get_acceleration speeds accelerations rows desired speed = Some r.
Proof.
  intros speeds accelerations rows i j speed desired row r U A S R E.
  destruct (C152_acceleration speeds accelerations rows desired speed U) as (column & x & G & F & O).
  destruct U as (N1 & N2 & A1 & A2 & L & RL). rewrite G. f_equal.
  rewrite nearest_inside in O by (eapply key_inside; eassumption).
  rewrite nearest_inside in F by (eapply key_inside; eassumption).
  assert (nth_error column i = Some r) as C.
  { clear - F R E S A1. revert i R. induction F as [| w a rows column H F IH]; intros [| i] R; try discriminate.
    - cbn in R. injection R as ->. cbn. f_equal. eapply line_at_node; eassumption.
    - now apply IH. }
  eapply line_at_node; eassumption.
Qed.

Lemma line_bounds : forall keys values q r lo hi, on_line keys values q r ->
  (forall v, In v values -> lo <= v <= hi) -> lo <= r <= hi.
Proof.
  intros keys values q r lo hi (i & k0 & k1 & v0 & v1 & K0 & K1 & V0 & V1 & Q & P & E) B.
  pose proof (B v0 (nth_error_In _ _ V0)). pose proof (B v1 (nth_error_In _ _ V1)).
  set (t := (q - k0) / (k1 - k0)). assert ((q - k0) = t * (k1 - k0)) as T by (unfold t; field; lra).
  assert (0 <= t <= 1) as TR by (clearbody t; split; nra).
  assert (r - v0 = (v1 - v0) * t) as RE.
  { apply (Rmult_eq_reg_r (k1 - k0)); [| lra]. rewrite E, T. ring. }
  assert (r = (1 - t) * v0 + t * v1) as -> by lra. clearbody t. nra.
Qed.

(** The answer lies within the entries of the table. *)
Theorem C152_bounds : forall speeds accelerations rows desired speed r lo hi,
  usable speeds accelerations rows ->
  get_acceleration speeds accelerations rows desired speed = Some r ->
  (forall row v, In row rows -> In v row -> lo <= v <= hi) -> lo <= r <= hi.
Proof.
  intros speeds accelerations rows desired speed r lo hi U G B.
  destruct (C152_acceleration speeds accelerations rows desired speed U) as (column & x & G' & F & O).
  assert (x = r) as -> by congruence. apply (line_bounds _ _ _ _ lo hi O).
  clear - F B. intros v I. induction F as [| w a rows column H F IH]; [destruct I |].
  destruct I as [<- | I].
  - apply (line_bounds _ _ _ _ lo hi H). intros y Y. apply (B w y); [now left | exact Y].
  - apply IH; [| exact I]. intros row y R Y. apply (B row y); [now right | exact Y].
Qed.

(** *** Example: a table of two speeds and three accelerations *)
Definition example_speeds : list R := [0; 10].
Definition example_accelerations : list R := [-1; 0; 2].
Definition example_rows : list (list R) := [[-1; -2]; [0; -1]; [2; 1]].

Lemma example_usable : usable example_speeds example_accelerations example_rows.
Proof.
  assert (forall a b, a < b -> below a b = true) as B by (intros; now apply below_true).
  unfold usable, example_speeds, example_accelerations, example_rows. repeat split; try (cbn; lia).
  - apply increasing_ascending. cbn [increasing]. rewrite !B by lra. reflexivity.
  - apply increasing_ascending. cbn [increasing]. rewrite !B by lra. reflexivity.
  - intros row [<- | [<- | [<- | []]]]; reflexivity.
Qed.

Example C152_example : get_acceleration example_speeds example_accelerations example_rows 2 10 = Some 1 /\
  exists r, get_acceleration example_speeds example_accelerations example_rows 50 3 = Some r /\ -2 <= r <= 2.
Proof.
  split.
  - now apply (C152_entries example_speeds example_accelerations example_rows 2 1 10 2 [2; 1] 1 example_usable).
  - destruct (C152_acceleration example_speeds example_accelerations example_rows 50 3 example_usable) as (c & r & G & _).
    exists r. split; [exact G |]. apply (C152_bounds _ _ _ _ _ _ _ _ example_usable G).
    intros row v [<- | [<- | [<- | []]]] V; cbn in V; repeat destruct V as [<- | V]; try lra; contradiction.
Qed.

Print Assumptions C152_line.
Print Assumptions C152_refused.
Print Assumptions C152_entry.
Print Assumptions C152_acceleration.
Print Assumptions C152_entries.
Print Assumptions C152_bounds.
