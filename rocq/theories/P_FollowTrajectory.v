(** * Facts about following a polyline trajectory *)

From Coq Require Import List Bool ZArith QArith Qabs Qminmax Lqa Lia.
From Verif Require Import M_FollowControl S_FollowControl P_FollowControl P_FollowControl2
  M_FollowTrajectory S_FollowTrajectory.
Import ListNotations.
Open Scope Q_scope.

Lemma due_none {P} (b : option Q) (v : vertex P) : due b v = None <-> arrival v = None.
Proof. unfold due. destruct (arrival v), b; split; congruence. Qed.

Lemma remaining_due {P} b now (v : vertex P) :
  match due b v with
  | None => remaining b now v = None
  | Some d =>
      exists r, remaining b now v = Some r /\
        (r == d - now \/ (d == now /\ r = epsilon))
  end.
Proof.
  unfold due, remaining. destruct (arrival v) as [t|]; [|reflexivity].
  destruct b as [b|]; cbv zeta.
  - destruct (Qeq_bool (b + t - now) 0) eqn:E; eexists; (split; [reflexivity|]).
    + apply Qeq_bool_eq in E. right. split; [lra | reflexivity].
    + left. reflexivity.
  - destruct (Qeq_bool (0 + t - now) 0) eqn:E; eexists; (split; [reflexivity|]).
    + apply Qeq_bool_eq in E. right. split; [lra | reflexivity].
    + left. ring.
Qed.

Lemma from_timed_split {P} (l : list (vertex P)) :
  (from_timed l = [] /\ forall u, In u l -> arrival u = None) \/
  exists before v after, l = before ++ v :: after /\ from_timed l = v :: after /\
    (forall u, In u before -> arrival u = None) /\ arrival v <> None.
Proof.
  induction l as [|v l IH]; simpl.
  - left. split; [reflexivity|]. intros u [].
  - destruct (arrival v) as [t|] eqn:E.
    + right. exists [], v, l. repeat split; [intros u []|congruence].
    + destruct IH as [[F A] | (b & u & a & -> & F & A & B)].
      * left. split; [exact F|]. intros x [<- | I]; auto.
      * right. exists (v :: b), u, a. repeat split; auto. intros x [<- | I]; auto.
Qed.

Lemma split_unique {P} (b1 b2 a1 a2 : list (vertex P)) u1 u2 :
  b1 ++ u1 :: a1 = b2 ++ u2 :: a2 ->
  (forall x, In x b1 -> arrival x = None) -> arrival u1 <> None ->
  (forall x, In x b2 -> arrival x = None) -> arrival u2 <> None ->
  b1 = b2 /\ u1 = u2 /\ a1 = a2.
Proof.
  revert b2. induction b1 as [|x b1 IH]; intros [|y b2]; simpl; intros E N1 U1 N2 U2.
  - injection E as -> ->. auto.
  - injection E as -> ->. exfalso. apply U1, N2. left. reflexivity.
  - injection E as -> <-. exfalso. apply U2, N1. left. reflexivity.
  - injection E as -> E. destruct (IH b2 E) as (-> & -> & ->); auto.
Qed.

Lemma distance_by_all {P H} (w : world P H) from l :
  (forall u, In u l -> arrival u = None) -> distance_by w from l == legs w from l.
Proof.
  revert from. induction l as [|v l IH]; simpl; intros from A; [reflexivity|].
  rewrite (A v) by auto. rewrite IH by auto. reflexivity.
Qed.

Lemma distance_by_timed {P H} (w : world P H) from before u after :
  (forall x, In x before -> arrival x = None) -> arrival u <> None ->
  distance_by w from (before ++ u :: after) == legs w from (before ++ [u]).
Proof.
  revert from. induction before as [|v l IH]; simpl; intros from A U.
  - destruct (arrival u); [reflexivity|congruence].
  - rewrite (A v) by auto. rewrite IH by auto. reflexivity.
Qed.

Lemma nearest_timed_final_iff {P} (l : list (vertex P)) :
  nearest_timed_final l = true <-> forall u, In u (removelast l) -> arrival u = None.
Proof.
  unfold nearest_timed_final. rewrite Nat.leb_le.
  destruct (from_timed_split l) as [[F A] | (b & v & a & -> & F & A & B)]; rewrite F; simpl.
  - split; [|lia]. intros _ u I. apply A.
    destruct l as [|x l]; [destruct I|].
    assert (N : x :: l <> []) by discriminate. rewrite (app_removelast_last x N).
    apply in_or_app. left. exact I.
  - rewrite removelast_app by discriminate. split.
    + intros L u I. destruct a; simpl in L; [|lia]. simpl in I. rewrite app_nil_r in I. auto.
    + intros N. destruct a as [|y a]; simpl; [lia|]. exfalso. apply B, N.
      apply in_or_app. right. left. reflexivity.
Qed.

Lemma desired_new_speed {P H} (w : world P H) p wanted t s target rest v :
  desired_velocity w p wanted t s target rest = inl v ->
  new_speed w p wanted t s (target :: rest) (snd v) /\ ignorable t = true /\
  fst v = toward w s (position target).
Proof.
  unfold desired_velocity. destruct (ignorable t) eqn:IG; [|discriminate]. cbv zeta.
  cbn [negb]. set (targets := target :: rest).
  set (left := remaining_timed (base t) (time s) targets).
  destruct (accelerate _ _ _ _ _ _ _) as [a| | | |] eqn:A; try discriminate.
  intros E. assert (V : v = (toward w s (position target), Qred (speed s + a * dt p)))
    by congruence. subst v. clear E. split; [|auto].
  exists (nearest_timed_final targets),
    (M_FollowControl.target
       (make_controller (dyn p) (dt p) (nearest_timed_final targets)
          match left with Some _ => None | None => wanted end)),
    left, (distance_by w (place s) targets), a.
  split; [exact A|]. split; [cbn [snd]; apply Qred_correct|].
  split; [apply nearest_timed_final_iff|].
  unfold make_controller. cbn [M_FollowControl.target].
  destruct (from_timed_split targets) as [[F N] | (b & u & af & E & F & N & B)].
  - split.
    + intros _. unfold left, remaining_timed. rewrite F. split; [reflexivity|].
      split; [reflexivity|]. apply distance_by_all, N.
    + intros before u after d E' _ D. exfalso.
      assert (arrival u = None) as U by (apply N; rewrite E'; apply in_or_app; right; left; reflexivity).
      apply (due_none (base t)) in U. congruence.
  - split.
    + intros A'. exfalso. apply B, A'. rewrite E. apply in_or_app. right. left. reflexivity.
    + intros before u' after d E' N' D'.
      assert (U' : arrival u' <> None).
      { intros X. apply (due_none (base t)) in X. congruence. }
      rewrite E in E'. destruct (split_unique _ _ _ _ _ _ E' N B N' U') as (<- & <- & <-).
      pose proof (remaining_due (base t) (time s) u) as R. rewrite D' in R.
      destruct R as (r & R1 & R2).
      assert (L : left = Some r) by (unfold left, remaining_timed; rewrite F; exact R1).
      rewrite L. split; [reflexivity|]. split.
      * rewrite E. apply distance_by_timed; assumption.
      * exists r. auto.
Qed.

Lemma half x : x / 2 == (1 # 2) * x.
Proof. field. Qed.

Lemma epsilon_positive : 0 < epsilon.
Proof. reflexivity. Qed.

Lemma definitely_less_lt a b : definitely_less a b = true -> a < b.
Proof.
  unfold definitely_less. intros H. deciding.
  assert (0 <= epsilon * Qmax (Qabs a) (Qabs b)).
  { apply Qmult_le_0_compat; [discriminate|].
    pose proof (Qmax_l (Qabs a) (Qabs b)). pose proof (Qabs_nonneg a). lra. }
  lra.
Qed.

Lemma not_definitely_less a b :
  0 < b -> definitely_less a b = false -> b * (1 - epsilon) <= a.
Proof.
  unfold definitely_less. intros B H. deciding.
  destruct (Qlt_le_dec a b) as [L | L].
  - destruct (Qlt_le_dec a (- b)) as [L' | L'].
    + exfalso.
      assert (M : Qmax (Qabs a) (Qabs b) == Qabs a).
      { apply Q.max_l. rewrite (Qabs_neg a) by lra. rewrite (Qabs_pos b) by lra. lra. }
      rewrite M in H. rewrite (Qabs_neg a) in H by lra. unfold epsilon in H. lra.
    + assert (M : Qmax (Qabs a) (Qabs b) == b).
      { rewrite (Qabs_pos b) by lra. apply Q.max_r. apply Qabs_case; lra. }
      rewrite M in H. unfold epsilon in *. lra.
  - unfold epsilon. lra.
Qed.

Lemma discard_beyond {P} (t : trajectory P) now previous target rest :
  discard t now previous target rest = beyond t now previous target rest.
Proof.
  unfold discard, beyond. f_equal. destruct (base t), (arrival target); reflexivity.
Qed.

(** How a frame ends at the trajectory [t] at which the recursion stops. *)
Inductive ending {P H} (w : world P H) (p : settings) (wanted : option Q) (t : trajectory P)
    (s : status P H) : result P H -> Prop :=
| ends_final previous target :
    vertices t = [previous; target] ->
    ending w p wanted t s (handle_final w p wanted t s previous target)
| ends_moving previous target rest v :
    vertices t = previous :: target :: rest -> rest <> [] ->
    desired_velocity w p wanted t s target rest = inl v ->
    ((remaining (base t) (time s) target = None /\
      step_length p s v < gap w (place s) (position target) /\
      local_epsilon <= gap w (place s) (position target)) \/
     exists r, remaining (base t) (time s) target = Some r /\
       definitely_less r (dt p / 2) = false) ->
    ending w p wanted t s (update w p t s v)
| ends_too_far previous target rest v r :
    vertices t = previous :: target :: rest -> rest <> [] ->
    desired_velocity w p wanted t s target rest = inl v ->
    remaining (base t) (time s) target = Some r -> definitely_less r (dt p / 2) = true ->
    step_length p s v < gap w (place s) (position target) ->
    local_epsilon <= gap w (place s) (position target) ->
    ending w p wanted t s (Failed TooFar)
| ends_no_velocity previous target rest f :
    vertices t = previous :: target :: rest -> rest <> [] ->
    desired_velocity w p wanted t s target rest = inr f ->
    ending w p wanted t s (Failed f)
| ends_short :
    (length (vertices t) < 2)%nat -> ending w p wanted t s (Failed TooFewVertices)
| ends_endless previous target rest :
    vertices t = previous :: target :: rest -> rest <> [] ->
    reaches w p wanted t s target rest ->
    ending w p wanted t s (Failed Endless).

Lemma reached_reaches {P H} (w : world P H) p wanted t s target rest v :
  desired_velocity w p wanted t s target rest = inl v ->
  le (gap w (place s) (position target)) (step_length p s v)
  || lt (gap w (place s) (position target)) local_epsilon = true ->
  (match remaining (base t) (time s) target with
   | None => True
   | Some r => definitely_less r (dt p / 2) = true
   end) ->
  reaches w p wanted t s target rest.
Proof.
  intros D R T. split.
  - exists (snd v). split; [apply (desired_new_speed _ _ _ _ _ _ _ _ D)|].
    apply orb_true_iff in R. destruct R as [R | R]; deciding; [left | right; exact R].
    unfold step_length in R.
    setoid_replace ((Qabs (speed s) + Qabs (snd v)) / 2 * dt p)
      with ((Qabs (speed s) + Qabs (snd v)) * (1 # 2) * dt p) by field. exact R.
  - intros d D'. pose proof (remaining_due (base t) (time s) target) as X. rewrite D' in X.
    destruct X as (r & RR & X). rewrite RR in T. apply definitely_less_lt in T.
    destruct X as [X | [X ->]]; [lra|]. pose proof epsilon_positive. lra.
Qed.

Lemma follow_refines {P H} (w : world P H) p wanted s depth t t' r :
  follow depth w p wanted t s = (t', r) ->
  exists passed, passing w p wanted s t passed t' /\ ending w p wanted t' s r.
Proof.
  revert t. induction depth as [|depth IH]; intros t F.
  - cbn [follow] in F. destruct (vertices t) as [|x [|y [|z rest]]] eqn:V.
    + injection F as <- <-. exists []. split; [constructor|]. apply ends_short. rewrite V. simpl. lia.
    + injection F as <- <-. exists []. split; [constructor|]. apply ends_short. rewrite V. simpl. lia.
    + injection F as <- <-. exists []. split; [constructor|]. apply ends_final, V.
    + destruct (desired_velocity _ _ _ _ _ _ _) as [v|e] eqn:D.
      2:{ injection F as <- <-. exists []. split; [constructor|].
          eapply ends_no_velocity; [exact V | discriminate | exact D]. }
      cbv zeta in F. destruct (_ || _) eqn:R in F.
      * destruct (remaining _ _ _) as [q|] eqn:M in F.
        -- destruct (definitely_less _ _) eqn:L in F; injection F as <- <-; exists [];
             (split; [constructor|]).
           ++ eapply ends_endless; [exact V | discriminate |].
              eapply reached_reaches; [exact D | exact R | rewrite M; exact L].
           ++ eapply ends_moving; [exact V | discriminate | exact D |]. right. eauto.
        -- injection F as <- <-. exists []. split; [constructor|].
           eapply ends_endless; [exact V | discriminate |].
           eapply reached_reaches; [exact D | exact R | rewrite M; exact I].
      * deciding. destruct (remaining _ _ _) as [q|] eqn:M in F.
        -- destruct (definitely_less _ _) eqn:L in F; injection F as <- <-; exists [];
             (split; [constructor|]).
           ++ eapply ends_too_far; [exact V | discriminate | exact D | exact M | exact L | lra | lra].
           ++ eapply ends_moving; [exact V | discriminate | exact D |]. right. eauto.
        -- injection F as <- <-. exists []. split; [constructor|].
           eapply ends_moving; [exact V | discriminate | exact D |]. left. repeat split; [exact M | lra | lra].
  - cbn [follow] in F. destruct (vertices t) as [|x [|y [|z rest]]] eqn:V.
    + injection F as <- <-. exists []. split; [constructor|]. apply ends_short. rewrite V. simpl. lia.
    + injection F as <- <-. exists []. split; [constructor|]. apply ends_short. rewrite V. simpl. lia.
    + injection F as <- <-. exists []. split; [constructor|]. apply ends_final, V.
    + destruct (desired_velocity _ _ _ _ _ _ _) as [v|e] eqn:D.
      2:{ injection F as <- <-. exists []. split; [constructor|].
          eapply ends_no_velocity; [exact V | discriminate | exact D]. }
      cbv zeta in F. destruct (_ || _) eqn:R in F.
      * destruct (remaining _ _ _) as [q|] eqn:M in F.
        -- destruct (definitely_less _ _) eqn:L in F.
           ++ rewrite discard_beyond in F. apply IH in F. destruct F as (passed & Q & E).
              exists (y :: passed). split; [|exact E].
              eapply passing_one; [exact V | discriminate | | exact Q].
              eapply reached_reaches; [exact D | exact R | rewrite M; exact L].
           ++ injection F as <- <-. exists []. split; [constructor|].
              eapply ends_moving; [exact V | discriminate | exact D |]. right. eauto.
        -- rewrite discard_beyond in F. apply IH in F. destruct F as (passed & Q & E).
           exists (y :: passed). split; [|exact E].
           eapply passing_one; [exact V | discriminate | | exact Q].
           eapply reached_reaches; [exact D | exact R | rewrite M; exact I].
      * deciding. destruct (remaining _ _ _) as [q|] eqn:M in F.
        -- destruct (definitely_less _ _) eqn:L in F; injection F as <- <-; exists [];
             (split; [constructor|]).
           ++ eapply ends_too_far; [exact V | discriminate | exact D | exact M | exact L | lra | lra].
           ++ eapply ends_moving; [exact V | discriminate | exact D |]. right. eauto.
        -- injection F as <- <-. exists []. split; [constructor|].
           eapply ends_moving; [exact V | discriminate | exact D |]. left. repeat split; [exact M | lra | lra].
Qed.
