(** * More facts about following a polyline trajectory: order, recursion, braking, the action *)

From Coq Require Import List Bool ZArith QArith Qabs Qround Qminmax Lqa Lia.
From Verif Require Import M_FollowControl S_FollowControl P_FollowControl P_FollowControl2
  M_FollowTrajectory S_FollowTrajectory P_FollowTrajectory.
Import ListNotations.
Open Scope Q_scope.

(** ** Order *)

Lemma passing_closed {P H} (w : world P H) p wanted s t passed t' :
  passing w p wanted s t passed t' -> closed t' = closed t.
Proof. induction 1; [reflexivity|]. exact IHpassing. Qed.

Lemma journey_closed {P H} (w : world P H) p t s passed t' s' :
  journey w p t s passed t' s' -> closed t' = closed t.
Proof.
  induction 1 as [|t s passed t1 s1 depth wanted t2 s2 s2' more J IH F Q]; [reflexivity|].
  rewrite (passing_closed _ _ _ _ _ _ _ Q). exact IH.
Qed.

Lemma passing_open {P H} (w : world P H) p wanted s t passed t' :
  passing w p wanted s t passed t' -> closed t = false ->
  tl (vertices t) = passed ++ tl (vertices t').
Proof.
  induction 1 as [t|t x y rest passed t' V N R Q IH]; intros C; [reflexivity|].
  rewrite V. cbn [tl]. cbn [app]. f_equal.
  assert (B : closed (beyond t (time s) x y rest) = false) by exact C.
  specialize (IH B). unfold beyond in IH. cbn [vertices] in IH. rewrite C in IH.
  exact IH.
Qed.

Lemma passing_bases {P H} (w : world P H) p wanted s t passed t' :
  passing w p wanted s t passed t' -> base t = None -> base t' = None.
Proof.
  induction 1 as [t|t x y rest passed t' V N R Q IH]; intros B; [exact B|].
  apply IH. unfold beyond. cbn [base]. rewrite B. reflexivity.
Qed.

(** The [k]-th element of a list that is read round and round. *)
Definition cyclic {A} (l : list A) (k : nat) : option A := nth_error l (k mod length l).

Lemma cyclic_rotate {A} (x : A) l k : cyclic (l ++ [x]) k = cyclic (x :: l) (S k).
Proof.
  unfold cyclic. rewrite app_length. cbn [length]. rewrite Nat.add_1_r.
  set (n := length l). assert (N : S n <> 0%nat) by lia.
  pose proof (Nat.mod_upper_bound k (S n) N) as U.
  replace (S k) with (1 + k)%nat by reflexivity.
  rewrite (Nat.add_mod 1 k (S n)) by exact N.
  destruct (Nat.eq_dec n 0) as [E | E].
  - assert (l = []) as -> by (destruct l; [reflexivity | unfold n in E; simpl in E; lia]).
    rewrite E. rewrite !Nat.mod_1_r. reflexivity.
  - rewrite (Nat.mod_small 1) by lia. set (r := (k mod S n)%nat) in *.
    destruct (Nat.eq_dec r n) as [-> | R].
    + rewrite nth_error_app2 by (unfold n; lia). unfold n at 1. rewrite Nat.sub_diag.
      replace (1 + n)%nat with (S n) by reflexivity. rewrite Nat.mod_same by exact N. reflexivity.
    + rewrite Nat.mod_small by lia. rewrite nth_error_app1 by (unfold n in *; lia). reflexivity.
Qed.

Lemma passing_cyclic {P H} (w : world P H) p wanted s t passed t' :
  passing w p wanted s t passed t' -> closed t = true ->
  length (vertices t') = length (vertices t) /\
  (forall i, (i < length passed)%nat -> nth_error passed i = cyclic (vertices t) (S i)) /\
  (forall k, cyclic (vertices t') k = cyclic (vertices t) (k + length passed)).
Proof.
  induction 1 as [t|t x y rest passed t' V N R Q IH]; intros C.
  - split; [reflexivity|]. split; [intros i L; simpl in L; lia|].
    intros k. cbn [length]. rewrite Nat.add_0_r. reflexivity.
  - assert (B : closed (beyond t (time s) x y rest) = true) by exact C.
    specialize (IH B). unfold beyond in IH. cbn [vertices] in IH. rewrite C in IH.
    destruct IH as (L & F & K). rewrite V.
    assert (ROT : forall k, cyclic (y :: rest ++ [x]) k = cyclic (x :: y :: rest) (S k))
      by (intros k; apply (cyclic_rotate x (y :: rest) k)).
    split; [|split].
    + rewrite L. cbn [length]. rewrite app_length. cbn [length]. lia.
    + intros [|i] LI.
      * unfold cyclic. rewrite Nat.mod_small by (cbn [length]; lia). reflexivity.
      * cbn [length] in LI. cbn [nth_error]. rewrite F by lia. apply ROT.
    + intros k. rewrite K, ROT. cbn [length]. f_equal. lia.
Qed.

(** ** Depth of the recursion *)

Lemma follow_not_endless {P H} (w : world P H) p wanted s depth t :
  closed t = false -> (length (vertices t) <= depth + 2)%nat ->
  snd (follow depth w p wanted t s) <> Failed Endless.
Proof.
  assert (DV : forall t y rest, desired_velocity w p wanted t s y rest <> inr Endless).
  { intros t0 y rest. unfold desired_velocity. destruct (negb _); [discriminate|]. cbv zeta.
    destruct (accelerate _ _ _ _ _ _ _); discriminate. }
  assert (UP : forall t v, update w p t s v <> Failed Endless).
  { intros t0 v. unfold update. destruct (vertices t0) as [|? [|? ?]]; try discriminate.
    destruct (late _ _ _ _); discriminate. }
  assert (HF : forall t x y, handle_final w p wanted t s x y <> Failed Endless).
  { intros t0 x y. unfold handle_final. cbv zeta.
    destruct (still s && _). { destruct (remaining _ _ _) as [q|]; [|discriminate].
      destruct (definitely_less _ _); [discriminate | apply UP]. }
    destruct (still s && _); [discriminate|]. destruct (le _ _); [apply UP|].
    pose proof (DV t0 y []) as D. destruct (desired_velocity _ _ _ _ _ _ _); [apply UP | congruence]. }
  revert t. induction depth as [|depth IH]; intros t C L.
  - cbn [follow]. destruct (vertices t) as [|x [|y [|z rest]]]; cbn [snd]; try discriminate.
    + apply HF.
    + simpl in L. lia.
  - cbn [follow]. destruct (vertices t) as [|x [|y [|z rest]]]; cbn [snd]; try discriminate.
    + apply HF.
    + pose proof (DV t y (z :: rest)) as D.
      assert (N : snd (follow depth w p wanted (discard t (time s) x y (z :: rest)) s)
                  <> Failed Endless).
      { apply IH; [exact C|]. unfold discard. cbn [vertices]. rewrite C. simpl in *. lia. }
      destruct (desired_velocity _ _ _ _ _ _ _) as [v|e]; cbn [snd]; [|congruence].
      cbv zeta. destruct (remaining _ _ _) as [q|].
      * destruct (definitely_less _ _); [|apply UP].
        destruct (_ || _); [exact N | discriminate].
      * destruct (_ || _); [exact N | apply UP].
Qed.

(** ** Braking near the end *)

Lemma brake_speed_facts p v :
  0 < dt p -> 0 < max_deceleration (dyn p) -> 0 < max_deceleration_rate (dyn p) -> 0 <= v ->
  0 <= brake_speed p v /\ v - max_deceleration (dyn p) * dt p <= brake_speed p v /\
  (brake_speed p v == 0 \/
   brake_speed p v <= v - Qmin (max_deceleration_rate (dyn p) * (dt p * dt p))
                            (max_deceleration (dyn p) * dt p)).
Proof.
  intros D A J V. unfold brake_speed.
  set (rate := max_deceleration_rate (dyn p)) in *. set (dec := max_deceleration (dyn p)) in *.
  set (d := dt p) in *.
  assert (K : 0 < rate * (d * d)) by (repeat apply Qmult_lt_0_compat; assumption).
  assert (AD : 0 < dec * d) by (apply Qmult_lt_0_compat; assumption).
  pose proof (Q.min_glb_lt _ _ _ K AD) as MP.
  destruct (Qlt_le_dec 0 v) as [VP | VN].
  - assert (S0 : 0 < v / (rate * (d * d))) by (apply Qlt_shift_div_l; lra).
    assert (E : v == v / (rate * (d * d)) * (rate * (d * d))) by (field; split; lra).
    destruct (with_jerk_stop d v rate _ D J S0 E) as (n & N & _ & N1 & N2 & W).
    set (s := v / (rate * (d * d))) in *. clearbody s.
    set (q := inject_Z n) in *.
    assert (Q1 : 1 <= q) by (unfold q; change 1 with (inject_Z 1); rewrite <- Zle_Qle; exact N).
    assert (X : with_jerk d v 0 rate * d == - (rate * (d * d) * (s / q + (q - 1) / 2))).
    { rewrite W. field. lra. }
    set (k := rate * (d * d)) in *.
    assert (B : 0 <= v + with_jerk d v 0 rate * d /\
                (v + with_jerk d v 0 rate * d == 0 \/ v + with_jerk d v 0 rate * d <= v - k)).
    { destruct (Z.eq_dec n 1) as [-> | NE].
      - assert (Z0 : v + with_jerk d v 0 rate * d == 0).
        { rewrite X, E. unfold q. change (inject_Z 1) with 1. field. }
        split; [rewrite Z0; lra | left; exact Z0].
      - assert (N3 : (2 <= n)%Z) by lia. specialize (N2 N3).
        assert (Q2 : 2 <= q) by (unfold q; change 2 with (inject_Z 2); rewrite <- Zle_Qle; exact N3).
        assert (S1 : q <= 2 * s) by nra.
        assert (S2 : (1 # 2) <= s / q) by (apply Qle_shift_div_l; lra).
        assert (S3 : (s / q) * q == s) by (field; lra).
        set (r := s / q) in *. clearbody r.
        assert (G : 0 <= s - (r + (q - 1) / 2)).
        { setoid_replace ((q - 1) / 2) with ((1 # 2) * (q - 1)) by field. nra. }
        assert (GE : 1 <= r + (q - 1) / 2).
        { setoid_replace ((q - 1) / 2) with ((1 # 2) * (q - 1)) by field. lra. }
        assert (P1 : 0 <= k * (s - (r + (q - 1) / 2))) by (apply Qmult_le_0_compat; lra).
        assert (P2 : 0 <= k * (r + (q - 1) / 2 - 1)) by (apply Qmult_le_0_compat; lra).
        split; [|right]; rewrite X.
        + rewrite E. setoid_replace (s * k + - (k * (r + (q - 1) / 2)))
            with (k * (s - (r + (q - 1) / 2))) by ring. exact P1.
        + setoid_replace (k * (r + (q - 1) / 2)) with (k * (r + (q - 1) / 2 - 1) + k) by ring.
          lra. }
    clear X W. set (wj := with_jerk d v 0 rate) in *. clearbody wj.
    pose proof (Q.min_spec k (dec * d)) as MS.
    pose proof (Q.le_min_l k (dec * d)). pose proof (Q.le_min_r k (dec * d)).
    set (mn := Qmin k (dec * d)) in *. clearbody mn.
    destruct (Q.max_spec wj (- dec)) as [[L M] | [L M]]; rewrite M.
    + assert (wj * d <= - dec * d) by (apply Qmult_le_compat_r; lra).
      split; [lra|]. split; [lra|]. right. lra.
    + assert (- dec * d <= wj * d) by (apply Qmult_le_compat_r; lra).
      split; [lra|]. split; [lra|]. destruct B as [_ [B | B]]; [left | right]; lra.
  - assert (V0 : v == 0) by lra.
    assert (W : with_jerk d v 0 rate == 0).
    { unfold with_jerk. cbv zeta.
      assert (DS : discrete_steps d (0 - v) rate = 1%Z).
      { unfold discrete_steps. unfold round_sqrt.
        assert (Z0 : 4 * (2 * Qabs (0 - v) / (Qabs rate * (d * d))) == 0).
        { assert (Qabs (0 - v) == 0) as -> by (rewrite V0; reflexivity).
          rewrite (Qabs_pos rate) by lra. field. lra. }
        assert (F : Qfloor (4 * (2 * Qabs (0 - v) / (Qabs rate * (d * d)))) = 0%Z)
          by (rewrite Z0; reflexivity).
        rewrite F. reflexivity. }
      rewrite DS. change (inject_Z 1) with 1. set (sg := if le 0 _ then _ else _). clearbody sg.
      setoid_replace (0 - v) with 0 by lra. field. lra. }
    assert (M : Qmax (with_jerk d v 0 rate) (- dec) == 0).
    { rewrite Q.max_l; [exact W|]. rewrite W. lra. }
    rewrite M. split; [lra|]. split; [lra|]. left. lra.
Qed.

(** ** The action *)

Lemma all_finished_map {A} (running : A -> bool) table :
  map fst (fst (all_finished running table)) = map fst table.
Proof.
  induction table as [|[a b] table IH]; [reflexivity|]. cbn [all_finished].
  destruct (b || negb (running a)); [|reflexivity].
  destruct (all_finished running table) as [rest r]. simpl in *. rewrite IH. reflexivity.
Qed.

Lemma all_finished_true {A} (running : A -> bool) table :
  snd (all_finished running table) = true <->
  forall a b, In (a, b) table -> b = true \/ running a = false.
Proof.
  induction table as [|[a b] table IH]; cbn [all_finished]; [split; [intros _ ? ? [] | reflexivity]|].
  destruct (b || negb (running a)) eqn:E.
  - destruct (all_finished running table) as [rest r]. cbn [snd] in *. rewrite IH.
    split; intros X a' b'.
    + intros [I | I]; [|exact (X a' b' I)]. injection I as <- <-.
      destruct b; [left; reflexivity|]. right. destruct (running a); [discriminate E | reflexivity].
    + intros I. apply X. right. exact I.
  - cbn [snd]. split; [discriminate|]. intros X. exfalso.
    destruct (X a b (or_introl eq_refl)) as [-> | Y]; [discriminate|].
    rewrite Y in E. destruct b; discriminate.
Qed.

Lemma all_finished_marks {A} (running : A -> bool) table a :
  In (a, true) (fst (all_finished running table)) ->
  In (a, true) table \/ running a = false.
Proof.
  induction table as [|[x b] table IH]; cbn [all_finished]; [intros []|].
  destruct (b || negb (running x)) eqn:E.
  - destruct (all_finished running table) as [rest r]. cbn [fst] in *.
    intros [I | I].
    + injection I as ->. destruct b; [left; left; reflexivity|]. right.
      destruct (running a); [discriminate E | reflexivity].
    + destruct (IH I) as [J | J]; [left; right; exact J | right; exact J].
  - cbn [fst]. intros [I | I]; [discriminate|]. left. right. exact I.
Qed.

Lemma all_finished_keeps {A} (running : A -> bool) table a :
  In (a, true) table -> In (a, true) (fst (all_finished running table)).
Proof.
  induction table as [|[x b] table IH]; cbn [all_finished]; [intros []|].
  destruct (b || negb (running x)) eqn:E.
  - destruct (all_finished running table) as [rest r]. cbn [fst] in *.
    intros [I | I]; [left; congruence | right; apply IH, I].
  - cbn [fst]. intros [I | I]; [|right; exact I]. injection I as -> ->. discriminate.
Qed.

Lemma all_finished_done {A} (running : A -> bool) table :
  snd (all_finished running table) = true ->
  forall a b, In (a, b) (fst (all_finished running table)) -> b = true.
Proof.
  induction table as [|[x b] table IH]; cbn [all_finished]; [intros _ ? ? []|].
  destruct (b || negb (running x)) eqn:E; [|discriminate].
  destruct (all_finished running table) as [rest r]. cbn [fst snd] in *.
  intros R a b' [I | I]; [congruence | exact (IH R a b' I)].
Qed.
