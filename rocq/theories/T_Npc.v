(** * Theorems about what an entity counts and checks in every frame (C179-C182). *)
From Coq Require Import List Bool Arith ZArith QArith Qabs Lqa Lia.
From Verif Require Import M_Job M_Npc S_Npc.
Import ListNotations.
Local Open Scope Q_scope.

Lemma qlt_spec : forall a b, qlt a b = true <-> a < b.
Proof.
  intros. unfold qlt. rewrite negb_true_iff. split; intros H.
  - apply Qnot_le_lt. intros C. apply Qle_bool_iff in C. congruence.
  - destruct (Qle_bool b a) eqn:E; [|reflexivity]. apply Qle_bool_iff in E. exfalso. lra.
Qed.
Lemma qlt_false : forall a b, qlt a b = false <-> b <= a.
Proof.
  intros. unfold qlt. rewrite negb_false_iff. apply Qle_bool_iff.
Qed.

Section Npc.
  Context {E : Type}.
  Variable at_end : E -> bool.
  Notation npc := (npc E).
  Notation jobs := (list (job npc)).

  (** All but the target speed and the exception. *)
  Definition kept (a b : npc) : Prop :=
    n_speed b = n_speed a /\ n_accel b = n_accel a /\ n_jerk b = n_jerk a /\ n_step b = n_step a /\
    n_travelled b = n_travelled a /\ n_still b = n_still a /\ n_rest b = n_rest a.
  Lemma kept_refl : forall a, kept a a.
  Proof. intros. repeat split. Qed.
  Lemma kept_trans : forall a b c, kept a b -> kept b c -> kept a c.
  Proof. unfold kept. intuition congruence. Qed.

  Definition job_of (f : npc -> npc * bool) (c : npc -> npc) (t : type) (e : event) (a : bool) (d : Q) :=
    {| j_update := reached f; j_cleanup := c; j_active := a; j_duration := d; j_type := t;
       j_exclusive := true; j_event := e |}.
  Definition ask (f : npc -> option Q * bool) (n : npc) : npc * bool :=
    let '(v, b) := f n in (with_target v n, b).
  (** The jobs that follow the first two. *)
  Inductive known : job npc -> Prop :=
  | KRange r a d : known (job_of (check r) nothing OutOfRange PostUpdate a d)
  | KSync m a d : known (job_of (synchronize m) nothing LinearAcceleration PostUpdate a d)
  | KAsk t e f c a d :
      known (job_of (ask f) (fun n => with_target (c n) n) (type_of t) e a d).
  Definition first (d : Q) := job_of (@count_distance E) nothing TraveledDistance PostUpdate true d.
  Definition second (d : Q) := job_of (@count_still E) nothing StandStillDuration PostUpdate true d.

  Lemma check_kept : forall r (n : npc), kept n (fst (check r n)).
  Proof. intros. unfold check. destruct within; [|repeat split]. destruct within; [|repeat split].
    destruct within; repeat split. Qed.
  Lemma sync_kept : forall (m : meeting E) n, kept n (fst (synchronize m n)).
  Proof.
    intros. unfold synchronize. destruct m_own as [[own|]|]; [|repeat split|repeat split].
    destruct m_other as [| |[d|] v]; [repeat split|repeat split| |repeat split].
    destruct qlt; repeat split.
  Qed.
  Lemma reached_kept : forall f d n, (forall m, kept m (fst (f m))) -> kept n (fst (reached f d n)).
  Proof. intros f d n H. unfold reached. destruct n_thrown; [apply kept_refl|apply H]. Qed.
  Lemma known_kept : forall j d n, known j -> kept n (fst (j_update j d n)) /\ kept n (j_cleanup j n).
  Proof.
    intros j d n K. destruct K; cbn [j_update j_cleanup job_of]; (split; [|repeat split]).
    - apply reached_kept, check_kept.
    - apply reached_kept, sync_kept.
    - apply reached_kept. intros x. unfold ask. destruct (f x); repeat split.
  Qed.
  Lemma known_calm : forall j d n, known j -> j_event j = PreUpdate ->
    n_thrown (fst (j_update j d n)) = n_thrown n.
  Proof.
    intros j d n K H. destruct K; try discriminate H. cbn [j_update job_of]. unfold reached.
    destruct (n_thrown n) eqn:T; [exact T|]. unfold ask. destruct (f n). exact T.
  Qed.
  Lemma known_cleanup : forall j n, known j -> n_thrown (j_cleanup j n) = n_thrown n.
  Proof. intros j n K. destruct K; reflexivity. Qed.

  (** One job in an update. *)
  Lemma on_update_known : forall i s j n, known j ->
    known (fst (fst (M_Job.on_update i s j n))) /\ kept n (snd (fst (M_Job.on_update i s j n))) /\
    (j_event j = PreUpdate -> n_thrown (snd (fst (M_Job.on_update i s j n))) = n_thrown n).
  Proof.
    intros i s j n K. unfold M_Job.on_update. destruct (j_active j) eqn:A.
    - destruct (j_update j (j_duration j) n) as [w b] eqn:U.
      destruct (known_kept j (j_duration j) n K) as [K1 _]. rewrite U in K1. cbn in K1.
      destruct b.
      + destruct (known_kept j 0 w K) as [_ K2]. cbn. split; [destruct K; constructor|].
        split; [eapply kept_trans; eassumption|]. intros H.
        rewrite known_cleanup by exact K. pose proof (known_calm j (j_duration j) n K H) as C.
        rewrite U in C. exact C.
      + cbn. split; [destruct K; constructor|]. split; [exact K1|]. intros H.
        pose proof (known_calm j (j_duration j) n K H) as C. rewrite U in C. exact C.
    - cbn. split; [exact K|]. split; [apply kept_refl|reflexivity].
  Qed.
  Lemma update_known : forall l i s e n, Forall known l ->
    Forall known (fst (fst (update_from i s e l n))) /\ kept n (snd (fst (update_from i s e l n))) /\
    (e = PreUpdate -> n_thrown (snd (fst (update_from i s e l n))) = n_thrown n).
  Proof.
    induction l as [|j l IH]; intros i s e n K; [cbn; split; [constructor|split; [apply kept_refl|auto]]|].
    inversion K as [|? ? K1 K2]; subst. cbn [update_from].
    destruct (event_eqb (j_event j) e) eqn:Ev.
    - destruct (on_update_known i s j n K1) as (A & B & C).
      destruct (M_Job.on_update i s j n) as [[j1 w1] cs]. cbn in A, B, C.
      destruct (IH (S i) s e w1 K2) as (A' & B' & C').
      destruct (update_from (S i) s e l w1) as [[l2 w2] cs']. cbn in *.
      split; [constructor; assumption|]. split; [eapply kept_trans; eassumption|].
      intros ->. rewrite C' by reflexivity. apply C. destruct (j_event j); [reflexivity|discriminate].
    - destruct (IH (S i) s e n K2) as (A' & B' & C').
      destruct (update_from (S i) s e l n) as [[l2 w2] cs']. cbn in *.
      split; [constructor; assumption|]. split; assumption.
  Qed.
  Lemma replace_known : forall l t ex i n, Forall known l ->
    Forall known (fst (fst (replace t ex i l n))) /\ kept n (snd (fst (replace t ex i l n))) /\
    n_thrown (snd (fst (replace t ex i l n))) = n_thrown n.
  Proof.
    induction l as [|j l IH]; intros t ex i n K;
      [cbn; split; [constructor|split; [apply kept_refl|reflexivity]]|].
    inversion K as [|? ? K1 K2]; subst. cbn [replace].
    destruct (type_eqb (j_type j) t && Bool.eqb (j_exclusive j) ex && j_active j).
    - unfold inactivate. destruct (known_kept j 0 n K1) as [_ B]. pose proof (known_cleanup j n K1) as C.
      destruct (IH t ex (S i) (j_cleanup j n) K2) as (A' & B' & C').
      destruct (replace t ex (S i) l (j_cleanup j n)) as [[l2 w2] cs']. cbn in *.
      split; [constructor; [destruct K1; constructor|assumption]|].
      split; [eapply kept_trans; eassumption|congruence].
    - destruct (IH t ex (S i) n K2) as (A' & B' & C').
      destruct (replace t ex (S i) l n) as [[l2 w2] cs']. cbn in *.
      split; [constructor; assumption|]. split; assumption.
  Qed.

  Definition inv (l : jobs) : Prop :=
    exists d1 d2 rest, l = first d1 :: second d2 :: rest /\ Forall known rest.
  Lemma fresh_inv : forall r, inv (fst (fresh r)).
  Proof. intros. exists 0, 0, []. split; [reflexivity|constructor]. Qed.

  Lemma append_inv : forall l n f c t e, inv l ->
    t <> TraveledDistance -> t <> StandStillDuration ->
    known (job_of f c t e true 0) ->
    inv (fst (appended f c t e l n)) /\ kept n (snd (appended f c t e l n)) /\
    n_thrown (snd (appended f c t e l n)) = n_thrown n.
  Proof.
    intros l n f c t e (d1 & d2 & rest & -> & K) T1 T2 Kj. unfold appended, append. cbn [replace].
    destruct (type_eqb (j_type (first d1)) t && Bool.eqb (j_exclusive (first d1)) true &&
              j_active (first d1)) eqn:B1; [destruct t; try discriminate B1; congruence|].
    destruct (type_eqb (j_type (second d2)) t && Bool.eqb (j_exclusive (second d2)) true &&
              j_active (second d2)) eqn:B2; [destruct t; try discriminate B2; congruence|].
    destruct (replace_known rest t true 2 n K) as (A & B & C).
    destruct (replace t true 2 rest n) as [[l2 w2] cs]. cbn in *. split; [|split; assumption].
    exists d1, d2, (l2 ++ [job_of f c t e true 0]). split; [reflexivity|].
    apply Forall_app. split; [exact A|]. constructor; [exact Kj|constructor].
  Qed.
  Lemma pre_inv : forall l n s, inv l ->
    inv (fst (updated s PreUpdate l n)) /\ kept n (snd (updated s PreUpdate l n)) /\
    n_thrown (snd (updated s PreUpdate l n)) = n_thrown n.
  Proof.
    intros l n s (d1 & d2 & rest & -> & K). unfold updated, update. cbn [update_from].
    change (event_eqb (j_event (first d1)) PreUpdate) with false.
    change (event_eqb (j_event (second d2)) PreUpdate) with false. cbn iota.
    destruct (update_known rest 2 s PreUpdate n K) as (A & B & C).
    destruct (update_from 2 s PreUpdate rest n) as [[l2 w2] cs]. cbn in *.
    split; [exists d1, d2, l2; split; [reflexivity|exact A]|]. split; [exact B|apply C; reflexivity].
  Qed.
  (** What the first two jobs do in an update after the frame. *)
  Definition counted (n : npc) : npc := fst (count_still (fst (count_distance n))).
  Lemma post_split : forall d1 d2 rest n s, n_thrown n = None ->
    fst (update s PostUpdate (first d1 :: second d2 :: rest) n) =
    (first (d1 + s) :: second (d2 + s) :: fst (fst (update_from 2 s PostUpdate rest (counted n))),
     snd (fst (update_from 2 s PostUpdate rest (counted n)))).
  Proof.
    intros d1 d2 rest n s T. unfold update. cbn [update_from].
    change (event_eqb (j_event (first d1)) PostUpdate) with true.
    change (event_eqb (j_event (second d2)) PostUpdate) with true. cbn iota.
    unfold M_Job.on_update at 1. cbn [j_active first job_of j_update j_duration].
    unfold reached at 1. rewrite T. cbn [count_distance].
    unfold M_Job.on_update at 1. cbn [j_active second job_of j_update j_duration].
    unfold reached at 1. cbn [n_thrown with_travelled]. rewrite T. cbn [count_still].
    change (with_still _ (with_travelled _ n)) with (counted n).
    destruct (update_from 2 s PostUpdate rest (counted n)) as [[l2 w2] cs]. reflexivity.
  Qed.
  Lemma post_inv : forall l n s, inv l -> n_thrown n = None ->
    inv (fst (updated s PostUpdate l n)) /\ kept (counted n) (snd (updated s PostUpdate l n)).
  Proof.
    intros l n s (d1 & d2 & rest & -> & K) T. unfold updated. rewrite post_split by exact T.
    destruct (update_known rest 2 s PostUpdate (counted n) K) as (A & B & _). cbn [fst snd].
    split; [|exact B]. eexists _, _, _. split; [reflexivity|exact A].
  Qed.

  (** A frame, as far as distance and standing still go. *)
  Definition seen_of (step : Q) (n : npc) : seen :=
    {| v_speed := n_speed n; v_accel := n_accel n; v_jerk := n_jerk n; v_step := step;
       v_end := at_end (n_rest n) |}.
  Lemma frame_inv : forall k s f l n, inv l -> n_thrown n = None ->
    let '(l1, n1) := frame at_end k s f l n in
    inv l1 /\
    n_travelled n1 == n_travelled n + Qabs (n_speed n1) * s /\
    n_still n1 = match k with
                 | Misc => n_still n
                 | Ego => if Qle_bool (Qabs (n_speed n1)) epsilon then n_still n + s else 0
                 | Driven => if at_end (n_rest n1) then n_still n
                             else if Qle_bool (Qabs (n_speed n1)) epsilon then n_still n + s else 0
                 end.
  Proof.
    intros k s f l n I T. destruct (pre_inv l n s I) as (I1 & K1 & T1). unfold frame.
    destruct k.
    - unfold on_update. destruct (updated s PreUpdate l n) as [l1 n1]. cbn [fst snd] in *.
      rewrite T in T1. destruct (post_inv l1 (with_step s n1) s I1 T1) as (I2 & K2).
      destruct (updated s PostUpdate l1 (with_step s n1)) as [l2 n2]. cbn [fst snd] in *.
      split; [exact I2|]. destruct K1 as (A1 & A2 & A3 & A4 & A5 & A6 & A7).
      destruct K2 as (B1 & B2 & B3 & B4 & B5 & B6 & B7). cbn in *. rewrite B5, B6, B1, A5, A6.
      split; reflexivity.
    - unfold on_update. destruct (updated s PreUpdate l n) as [l1 n1]. cbn [fst snd] in *.
      rewrite T in T1. set (d := f (with_step s n1)).
      set (n2 := with_motion (d_speed d) (d_accel d) (d_jerk d) (d_rest d) (with_step s n1)).
      destruct K1 as (A1 & A2 & A3 & A4 & A5 & A6 & A7).
      destruct (at_end (d_rest d)) eqn:En.
      + split; [exact I1|]. cbn. rewrite En, A5, A6. split; [|reflexivity]. ring.
      + destruct (post_inv l1 n2 s I1 T1) as (I2 & K2).
        destruct (updated s PostUpdate l1 n2) as [l2 n3]. cbn [fst snd] in *. split; [exact I2|].
        destruct K2 as (B1 & B2 & B3 & B4 & B5 & B6 & B7). rewrite B7. cbn in *. rewrite En, B5, B6, B1, A5, A6.
        split; reflexivity.
    - cbn. split; [exact I|]. split; [|reflexivity]. ring.
  Qed.

  Lemma exec_other : forall k o l n, inv l -> n_thrown n = None ->
    (forall s f, o <> Frame s f) ->
    let '(l1, n1, _) := exec at_end k o l n in
    inv l1 /\ n_travelled n1 = n_travelled n /\ n_still n1 = n_still n /\ n_thrown n1 = None.
  Proof.
    intros k o l n I T N. destruct o as [r|m|t e f c|t|v a j r|s f]; cbn [exec].
    - pose proof (append_inv l n (check r) nothing OutOfRange PostUpdate I ltac:(discriminate)
                    ltac:(discriminate) (KRange r true 0)) as (A & B & C).
      destruct appended as [l1 n1]. cbn in *. destruct B as (_ & _ & _ & _ & B5 & B6 & _).
      split; [exact A|]. split; [exact B5|]. split; [exact B6|congruence].
    - assert (S : let '(l1, n1, _) :=
                    if m_near m (n_rest n) then (l, with_target (Some (m_speed m)) n, Answered true)
                    else (appended (synchronize m) nothing LinearAcceleration PostUpdate l n, Answered false)
                  in inv l1 /\ n_travelled n1 = n_travelled n /\ n_still n1 = n_still n /\
                     n_thrown n1 = None).
      { destruct m_near; [repeat split; [exact I|exact T]|].
        pose proof (append_inv l n (synchronize m) nothing LinearAcceleration PostUpdate I
                      ltac:(discriminate) ltac:(discriminate) (KSync m true 0)) as (A & B & C).
        destruct appended as [l1 n1]. cbn in *. destruct B as (_ & _ & _ & _ & B5 & B6 & _).
        split; [exact A|]. split; [exact B5|]. split; [exact B6|congruence]. }
      destruct k; [repeat split; [exact I|exact T]|exact S|exact S].
    - pose proof (append_inv l n (ask f) (fun n => with_target (c n) n) (type_of t) e I
                    ltac:(destruct t; discriminate) ltac:(destruct t; discriminate)
                    (KAsk t e f c true 0)) as (A & B & C).
      unfold ask in A, B, C. destruct appended as [l1 n1]. cbn in *.
      destruct B as (_ & _ & _ & _ & B5 & B6 & _).
      split; [exact A|]. split; [exact B5|]. split; [exact B6|congruence].
    - repeat split; [exact I|exact T].
    - repeat split; [exact I|exact T].
    - exfalso. exact (N s f eq_refl).
  Qed.

  (** ** C179: the distance travelled. *)
  Lemma distance_from : forall k os l n, inv l -> n_thrown n = None ->
    n_travelled (snd (execs at_end k os l n)) == n_travelled n + way (watch at_end k os l n).
  Proof.
    intros k. induction os as [|o os IH]; intros l n I T; cbn [execs watch]; [cbn; ring|].
    assert (D : (exists s f, o = Frame s f) \/ forall s f, o <> Frame s f).
    { destruct o; try (right; discriminate). left. eexists _, _. reflexivity. }
    destruct D as [(s & f & ->)|N].
    - cbn [exec]. pose proof (frame_inv k s f l n I T) as F.
      destruct (frame at_end k s f l n) as [l1 n1]. destruct F as (I1 & F & _). cbn iota.
      destruct (n_thrown n1) eqn:T1; cbn [snd way fold_right v_speed v_step].
      + rewrite F. ring.
      + rewrite IH by assumption. rewrite F. unfold way. ring.
    - pose proof (exec_other k o l n I T N) as F.
      destruct (exec at_end k o l n) as [[l1 n1] a]. destruct F as (I1 & F & _ & T1). rewrite T1.
      rewrite IH by assumption. rewrite F. destruct o; try reflexivity. exfalso. eapply N. reflexivity.
  Qed.
  (** It is the way gone at the speeds seen after the frames, whatever is asked of the entity. *)
  Theorem C179_distance : forall k os r,
    n_travelled (snd (execs at_end k os (fst (fresh r)) (snd (fresh r)))) ==
    way (watch at_end k os (fst (fresh r)) (snd (fresh r))).
  Proof. intros. rewrite distance_from; [cbn; ring|apply fresh_inv|reflexivity]. Qed.

  (** ** C180: how long the entity stands still. *)
  Definition counting (k : kind) (f : seen) : bool :=
    match k with Ego => true | Driven => negb (v_end f) | Misc => false end.
  Lemma still_from : forall k os l n, inv l -> n_thrown n = None ->
    let fs := filter (counting k) (watch at_end k os l n) in
    n_still (snd (execs at_end k os l n)) ==
    (if existsb moves fs then 0 else n_still n) + since moves fs.
  Proof.
    intros k. induction os as [|o os IH]; intros l n I T; cbn [execs watch]; [cbn; ring|].
    assert (D : (exists s f, o = Frame s f) \/ forall s f, o <> Frame s f).
    { destruct o; try (right; discriminate). left. eexists _, _. reflexivity. }
    destruct D as [(s & f & ->)|N].
    - cbn [exec]. pose proof (frame_inv k s f l n I T) as F.
      destruct (frame at_end k s f l n) as [l1 n1]. destruct F as (I1 & _ & F). cbn iota.
      assert (R : forall later, n_still n1 == n_still n1 ->
        (if existsb moves later then 0 else n_still n1) + since moves later ==
        (if existsb moves (filter (counting k) [seen_of s n1] ++ later) then 0 else n_still n) +
        since moves (filter (counting k) [seen_of s n1] ++ later)).
      { intros later _. cbn [filter]. destruct (counting k (seen_of s n1)) eqn:Cn; cbn [app].
        - assert (F' : n_still n1 = if Qle_bool (Qabs (n_speed n1)) epsilon then n_still n + s else 0).
          { destruct k; [exact F| |discriminate Cn]. cbn in Cn. rewrite negb_true_iff in Cn.
            rewrite Cn in F. exact F. }
          rewrite F'. cbn [existsb since].
          assert (M : moves (seen_of s n1) = negb (Qle_bool (Qabs (n_speed n1)) epsilon)) by reflexivity.
          rewrite M. destruct Qle_bool; cbn [negb orb].
          + destruct (existsb moves later); [ring|]. cbn [v_step seen_of]. ring.
          + destruct (existsb moves later); ring.
        - assert (F' : n_still n1 = n_still n).
          { destruct k; [discriminate Cn| |exact F]. cbn in Cn. rewrite negb_false_iff in Cn.
            rewrite Cn in F. exact F. }
          rewrite F'. reflexivity. }
      change {| v_speed := n_speed n1; v_accel := n_accel n1; v_jerk := n_jerk n1; v_step := s;
                v_end := at_end (n_rest n1) |} with (seen_of s n1).
      destruct (n_thrown n1) eqn:T1.
      + cbv zeta. rewrite <- (app_nil_r (filter _ _)). rewrite <- (R [] ltac:(reflexivity)). cbn. ring.
      + cbv zeta.
        change (filter (counting k) (seen_of s n1 :: watch at_end k os l1 n1)) with
          (filter (counting k) ([seen_of s n1] ++ watch at_end k os l1 n1)).
        rewrite filter_app. rewrite <- R by reflexivity. apply IH; assumption.
    - pose proof (exec_other k o l n I T N) as F.
      destruct (exec at_end k o l n) as [[l1 n1] a]. destruct F as (I1 & _ & F & T1). rewrite T1.
      specialize (IH l1 n1 I1 T1). cbv zeta in *. rewrite F in IH. rewrite IH.
      destruct o; try reflexivity. exfalso. eapply N. reflexivity.
  Qed.
  (** The ego: since the last frame after which it moved. *)
  Theorem C180_ego : forall os r,
    n_still (snd (execs at_end Ego os (fst (fresh r)) (snd (fresh r)))) ==
    since moves (watch at_end Ego os (fst (fresh r)) (snd (fresh r))).
  Proof.
    intros os r. pose proof (still_from Ego os (fst (fresh r)) (snd (fresh r)) (fresh_inv r) eq_refl) as H.
    cbv zeta in H. cbn [counting] in H.
    assert (Fl : forall l : list seen, filter (fun _ => true) l = l)
      by (induction l as [|x l IH]; cbn; [|rewrite IH]; reflexivity).
    rewrite Fl in H. rewrite H. cbn [n_still snd fresh]. cbn. destruct existsb; ring.
  Qed.
  (** Vehicles and pedestrians: likewise, but frames at the end of the road do not count. *)
  Theorem C180_driven : forall os r,
    n_still (snd (execs at_end Driven os (fst (fresh r)) (snd (fresh r)))) ==
    since moves (filter (fun f => negb (v_end f)) (watch at_end Driven os (fst (fresh r)) (snd (fresh r)))).
  Proof.
    intros os r.
    pose proof (still_from Driven os (fst (fresh r)) (snd (fresh r)) (fresh_inv r) eq_refl) as H.
    cbv zeta in H. unfold counting in H. rewrite H. cbn. destruct existsb; ring.
  Qed.
  (** An object has never stood still. *)
  Theorem C180_misc : forall os r,
    n_still (snd (execs at_end Misc os (fst (fresh r)) (snd (fresh r)))) == 0.
  Proof.
    intros os r.
    pose proof (still_from Misc os (fst (fresh r)) (snd (fresh r)) (fresh_inv r) eq_refl) as H.
    cbv zeta in H. unfold counting in H.
    assert (Fl : forall l : list seen, filter (fun _ => false) l = [])
      by (induction l as [|x l IH]; cbn; [|rewrite IH]; reflexivity).
    rewrite Fl in H. rewrite H. cbn. ring.
  Qed.

  (** ** C181: values out of range. *)
  Definition idle (j : job npc) : Prop := j_type j = OutOfRange -> j_active j = false.
  Definition range_job (r : range) (d : Q) := job_of (@check E r) nothing OutOfRange PostUpdate true d.
  Definition force (l : jobs) (r : option range) : Prop :=
    match r with
    | None => Forall idle l
    | Some r => exists a b d, l = a ++ range_job r d :: b /\ Forall idle a /\ Forall idle b
    end.
  Lemma update_app : forall a b i s e (n : npc),
    fst (update_from i s e (a ++ b) n) =
    (fst (fst (update_from i s e a n)) ++
       fst (fst (update_from (length a + i) s e b (snd (fst (update_from i s e a n))))),
     snd (fst (update_from (length a + i) s e b (snd (fst (update_from i s e a n)))))).
  Proof.
    induction a as [|j a IH]; intros b i s e n.
    - cbn. destruct (update_from i s e b n) as [[? ?] ?]. reflexivity.
    - cbn [app update_from length].
      destruct (if event_eqb (j_event j) e then M_Job.on_update i s j n else (j, n, [])) as [[j1 w1] cs].
      specialize (IH b (S i) s e w1). rewrite Nat.add_succ_r in IH. cbn [Nat.add].
      destruct (update_from (S i) s e (a ++ b) w1) as [[x y] z].
      destruct (update_from (S i) s e a w1) as [[x' y'] z']. cbn in *. injection IH as -> ->.
      reflexivity.
  Qed.
  Lemma sticky : forall l i s e n x, Forall known l -> n_thrown n = Some x ->
    n_thrown (snd (fst (update_from i s e l n))) = Some x.
  Proof.
    induction l as [|j l IH]; intros i s e n x K T; [exact T|]. inversion K as [|? ? K1 K2]; subst.
    cbn [update_from].
    assert (Hs : n_thrown (snd (fst (if event_eqb (j_event j) e then M_Job.on_update i s j n
                                    else (j, n, [])))) = Some x).
    { destruct event_eqb; [|exact T]. unfold M_Job.on_update. destruct (j_active j); [|exact T].
      destruct K1; cbn [j_update job_of]; unfold reached; rewrite T; exact T. }
    destruct (if event_eqb (j_event j) e then M_Job.on_update i s j n else (j, n, [])) as [[j1 w1] cs].
    cbn in Hs. specialize (IH (S i) s e w1 x K2 Hs).
    destruct (update_from (S i) s e l w1) as [[? ?] ?]. exact IH.
  Qed.
  Lemma quiet : forall l i s e n v, Forall known l -> Forall idle l ->
    n_thrown (snd (fst (update_from i s e l n))) = Some (OutOfBounds v) ->
    n_thrown n = Some (OutOfBounds v).
  Proof.
    induction l as [|j l IH]; intros i s e n v K D T; [exact T|]. inversion K as [|? ? K1 K2]; subst.
    inversion D as [|? ? D1 D2]; subst. cbn [update_from] in T.
    assert (Hs : n_thrown (snd (fst (if event_eqb (j_event j) e then M_Job.on_update i s j n
                                    else (j, n, [])))) = Some (OutOfBounds v) ->
                n_thrown n = Some (OutOfBounds v)).
    { destruct event_eqb; [|auto]. unfold M_Job.on_update. destruct (j_active j) eqn:A; [|auto].
      destruct K1 as [r a d|m a d|t ev f c a d]; cbn [j_update job_of j_cleanup j_duration].
      - specialize (D1 eq_refl). cbn in A, D1. congruence.
      - unfold reached. destruct (n_thrown n) as [x|] eqn:Tn; [cbn; unfold nothing; cbn; intros; congruence|].
        unfold synchronize. destruct m_own as [[own|]|]; [|discriminate|discriminate].
        destruct m_other as [| |[dd|] vv]; [discriminate|discriminate| |cbn; unfold nothing; cbn; intros; congruence].
        destruct qlt; cbn; unfold nothing; cbn; intros; congruence.
      - unfold reached. destruct (n_thrown n) as [x|] eqn:Tn; [cbn; unfold nothing; cbn; intros; congruence|].
        unfold ask. destruct (f n) as [w []]; cbn; unfold nothing; cbn; intros; congruence. }
    apply Hs. clear Hs.
    destruct (if event_eqb (j_event j) e then M_Job.on_update i s j n else (j, n, [])) as [[j1 w1] cs].
    cbn. apply (IH (S i) s e w1 v K2 D2).
    destruct (update_from (S i) s e l w1) as [[? ?] ?]. exact T.
  Qed.
  Lemma within_kept : forall r (a b : npc) v, kept a b -> within r b v = within r a v.
  Proof.
    intros r a b v (A & B & C & _). unfold within, current. destruct v; rewrite ?A, ?B, ?C; reflexivity.
  Qed.
  Lemma range_step : forall r d i s (n : npc), n_thrown n = None ->
    snd (fst (M_Job.on_update i s (range_job r d) n)) = fst (check r n).
  Proof.
    intros r d i s n T. unfold M_Job.on_update. cbn [j_active range_job job_of j_update]. unfold reached.
    rewrite T. unfold check. destruct within; [|reflexivity]. destruct within; [|reflexivity].
    destruct within; reflexivity.
  Qed.
  Lemma check_spec : forall r (n : npc), n_thrown n = None ->
    match n_thrown (fst (check r n)) with
    | None => forall v, within r n v = true
    | Some (OutOfBounds v) => within r n v = false
    | Some (Unsynchronizable _) => False
    end.
  Proof.
    intros r n T. unfold check. destruct (within r n Speed) eqn:A; [|exact A].
    destruct (within r n Acceleration) eqn:B; [|exact B].
    destruct (within r n Jerk) eqn:C; [|exact C]. cbn. rewrite T. intros []; assumption.
  Qed.
  Lemma post_thrown : forall rest r i s n, Forall known rest -> force rest r -> n_thrown n = None ->
    match n_thrown (snd (fst (update_from i s PostUpdate rest n))) with
    | None => match r with Some r => forall v, within r n v = true | None => True end
    | Some (OutOfBounds v) => match r with Some r => within r n v = false | None => False end
    | Some (Unsynchronizable _) => True
    end.
  Proof.
    intros rest [r|] i s n K F T.
    - destruct F as (a & b & d & -> & Da & Db). apply Forall_app in K as [Ka K].
      inversion K as [|? ? K1 Kb]; subst. rewrite update_app. cbn [snd].
      pose proof (update_known a i s PostUpdate n Ka) as (_ & Kp & _).
      set (n1 := snd (fst (update_from i s PostUpdate a n))) in *.
      destruct (n_thrown n1) as [x|] eqn:T1.
      + assert (Hs := sticky (range_job r d :: b) (length a + i) s PostUpdate n1 x
                       ltac:(constructor; assumption) T1).
        rewrite Hs. destruct x as [v|?]; [|exact I].
        pose proof (quiet a i s PostUpdate n v Ka Da T1) as Qn. congruence.
      + cbn [update_from]. change (event_eqb (j_event (range_job r d)) PostUpdate) with true. cbn iota.
        pose proof (range_step r d (length a + i) s n1 T1) as R.
        destruct (M_Job.on_update (length a + i) s (range_job r d) n1) as [[j2 n2] cs]. cbn in R. subst n2.
        pose proof (check_spec r n1 T1) as Ck.
        destruct (n_thrown (fst (check r n1))) as [x|] eqn:T2.
        * pose proof (sticky b (S (length a + i)) s PostUpdate _ x Kb T2) as Hs.
          destruct (update_from (S (length a + i)) s PostUpdate b (fst (check r n1))) as [[? ?] ?].
          cbn in *. rewrite Hs. destruct x as [v|?]; [|exact I]. rewrite <- Ck.
          symmetry. apply within_kept. exact Kp.
        * pose proof (quiet b (S (length a + i)) s PostUpdate (fst (check r n1))) as Q'.
          destruct (update_from (S (length a + i)) s PostUpdate b (fst (check r n1))) as [[? w] ?].
          cbn in *. destruct (n_thrown w) as [[v|?]|]; [|exact I|].
          -- specialize (Q' v Kb Db eq_refl). congruence.
          -- intros v. rewrite <- (Ck v). symmetry. apply within_kept. exact Kp.
    - cbn in F. destruct (n_thrown (snd (fst (update_from i s PostUpdate rest n)))) as [[v|?]|] eqn:T1;
        [|exact I|exact I]. pose proof (quiet _ _ _ _ _ _ K F T1) as Qn. congruence.
  Qed.
  (** The range in force is the last one activated. *)
  Lemma idle_update : forall l i s e n, Forall idle l -> Forall idle (fst (fst (update_from i s e l n))).
  Proof.
    induction l as [|j l IH]; intros i s e n D; [constructor|]. inversion D as [|? ? D1 D2]; subst.
    cbn [update_from].
    assert (Hs : idle (fst (fst (if event_eqb (j_event j) e then M_Job.on_update i s j n
                                else (j, n, []))))).
    { destruct event_eqb; [|exact D1]. unfold M_Job.on_update. destruct (j_active j) eqn:A; [|exact D1].
      destruct (j_update j (j_duration j) n) as [w []]; cbn.
      - intros _. reflexivity.
      - intros H. exact (D1 H). }
    destruct (if event_eqb (j_event j) e then M_Job.on_update i s j n else (j, n, [])) as [[j1 w1] cs].
    specialize (IH (S i) s e w1 D2). destruct (update_from (S i) s e l w1) as [[? ?] ?].
    constructor; assumption.
  Qed.
  Lemma force_update : forall l r i s e n, force l r -> force (fst (fst (update_from i s e l n))) r.
  Proof.
    intros l [r|] i s e n F; [|apply idle_update; exact F]. destruct F as (a & b & d & -> & Da & Db).
    rewrite update_app. cbn [fst]. set (n1 := snd (fst (update_from i s e a n))).
    cbn [update_from].
    assert (Hs : exists d' w cs, (if event_eqb (j_event (range_job r d)) e
                            then M_Job.on_update (length a + i) s (range_job r d) n1
                            else (range_job r d, n1, [])) = (range_job r d', w, cs)).
    { destruct event_eqb; [|eexists _, _, _; reflexivity]. unfold M_Job.on_update.
      cbn [j_active range_job job_of j_update j_duration].
      assert (H : exists w, reached (check r) d n1 = (w, false)).
      { unfold reached. destruct n_thrown; [eexists; reflexivity|]. unfold check.
        destruct within; [|eexists; reflexivity]. destruct within; [|eexists; reflexivity].
        destruct within; eexists; reflexivity. }
      destruct H as [w H]. rewrite H. eexists (d + s), _, _. reflexivity. }
    destruct Hs as (d' & w & cs & ->).
    pose proof (idle_update b (S (length a + i)) s e w Db) as Ib.
    destruct (update_from (S (length a + i)) s e b w) as [[b' ?] ?].
    exists (fst (fst (update_from i s e a n))), b', d'.
    split; [reflexivity|]. split; [apply idle_update; exact Da|exact Ib].
  Qed.
  Lemma replace_same_type : forall l i (n : npc),
    Forall (fun j => j_type j = OutOfRange -> j_exclusive j = true) l ->
    Forall idle (fst (fst (replace OutOfRange true i l n))).
  Proof.
    induction l as [|j l IH]; intros i n H; [constructor|]. inversion H as [|? ? H1 H2]; subst.
    cbn [replace].
    assert (Hs : idle (fst (fst (if type_eqb (j_type j) OutOfRange && Bool.eqb (j_exclusive j) true &&
                                   j_active j then inactivate i j n else (j, n, []))))).
    { destruct (type_eqb (j_type j) OutOfRange && Bool.eqb (j_exclusive j) true && j_active j) eqn:B.
      - intros _. reflexivity.
      - cbn. intros T. rewrite T, (H1 T) in B. cbn in B. exact B. }
    destruct (if type_eqb (j_type j) OutOfRange && Bool.eqb (j_exclusive j) true && j_active j
              then inactivate i j n else (j, n, [])) as [[j1 w1] cs].
    specialize (IH (S i) w1 H2). destruct (replace OutOfRange true (S i) l w1) as [[? ?] ?].
    constructor; assumption.
  Qed.
  Lemma idle_replace : forall l t i (n : npc), Forall idle l ->
    Forall idle (fst (fst (replace t true i l n))).
  Proof.
    induction l as [|j l IH]; intros t i n D; [constructor|]. inversion D as [|? ? D1 D2]; subst.
    cbn [replace].
    assert (Hs : idle (fst (fst (if type_eqb (j_type j) t && Bool.eqb (j_exclusive j) true &&
                                   j_active j then inactivate i j n else (j, n, []))))).
    { destruct (type_eqb (j_type j) t && Bool.eqb (j_exclusive j) true && j_active j); [|exact D1].
      intros _. reflexivity. }
    destruct (if type_eqb (j_type j) t && Bool.eqb (j_exclusive j) true && j_active j
              then inactivate i j n else (j, n, [])) as [[j1 w1] cs].
    specialize (IH t (S i) w1 D2). destruct (replace t true (S i) l w1) as [[? ?] ?].
    constructor; assumption.
  Qed.
  Lemma replace_app : forall a b t i (n : npc),
    fst (replace t true i (a ++ b) n) =
    (fst (fst (replace t true i a n)) ++
       fst (fst (replace t true (length a + i) b (snd (fst (replace t true i a n))))),
     snd (fst (replace t true (length a + i) b (snd (fst (replace t true i a n)))))).
  Proof.
    induction a as [|j a IH]; intros b t i n.
    - cbn. destruct (replace t true i b n) as [[? ?] ?]. reflexivity.
    - cbn [app replace length].
      destruct (if type_eqb (j_type j) t && Bool.eqb (j_exclusive j) true && j_active j
                then inactivate i j n else (j, n, [])) as [[j1 w1] cs].
      specialize (IH b t (S i) w1). rewrite Nat.add_succ_r in IH. cbn [Nat.add].
      destruct (replace t true (S i) (a ++ b) w1) as [[x y] z].
      destruct (replace t true (S i) a w1) as [[x' y'] z']. cbn in *. injection IH as -> ->.
      reflexivity.
  Qed.
  Lemma force_append : forall l r n f c t e, force l r -> t <> OutOfRange ->
    force (fst (appended f c t e l n)) r.
  Proof.
    intros l r n f c t e F N. unfold appended, append.
    assert (L : idle (job_of f c t e true 0)) by (intros H; cbn in H; congruence).
    assert (R : force (fst (fst (replace t true 0 l n))) r).
    { destruct r as [r|]; [|apply idle_replace; exact F]. destruct F as (a & b & d & -> & Da & Db).
      rewrite replace_app. cbn [fst]. set (n1 := snd (fst (replace t true 0 a n))). cbn [replace].
      assert (B : type_eqb (j_type (range_job r d)) t = false) by (destruct t; try reflexivity; congruence).
      rewrite B. cbn [andb]. pose proof (idle_replace b t (S (length a + 0)) n1 Db) as Ib.
      destruct (replace t true (S (length a + 0)) b n1) as [[b' ?] ?].
      exists (fst (fst (replace t true 0 a n))), b', d. split; [reflexivity|].
      split; [apply idle_replace; exact Da|exact Ib]. }
    destruct (replace t true 0 l n) as [[l1 w1] cs]. cbn in *. destruct r as [r|].
    - destruct R as (a & b & d & -> & Da & Db). exists a, (b ++ [job_of f c t e true 0]), d.
      rewrite <- app_assoc. split; [reflexivity|]. split; [exact Da|].
      apply Forall_app. split; [exact Db|]. constructor; [exact L|constructor].
    - apply Forall_app. split; [exact R|]. constructor; [exact L|constructor].
  Qed.
  Lemma inv_exclusive : forall l, inv l -> Forall (fun j => j_type j = OutOfRange -> j_exclusive j = true) l.
  Proof.
    intros l (d1 & d2 & rest & -> & K). constructor; [discriminate|]. constructor; [discriminate|].
    eapply Forall_impl; [|exact K]. intros j Kj _. destruct Kj; reflexivity.
  Qed.
  Lemma force_activate : forall l r n, inv l ->
    force (fst (appended (check r) nothing OutOfRange PostUpdate l n)) (Some r).
  Proof.
    intros l r n I. unfold appended, append.
    pose proof (replace_same_type l 0 n (inv_exclusive l I)) as R.
    destruct (replace OutOfRange true 0 l n) as [[l1 w1] cs]. cbn in *.
    exists l1, [], 0. split; [reflexivity|]. split; [exact R|constructor].
  Qed.
  (** The range activated last in a history. *)
  Definition activated (os : list (op E)) : option range :=
    fold_left (fun r o => match o with Activate r' => Some r' | _ => r end) os None.
  Definition activated_from (r : option range) (os : list (op E)) : option range :=
    fold_left (fun r o => match o with Activate r' => Some r' | _ => r end) os r.
  Lemma frame_force : forall k s f l n r, inv l -> force l r ->
    force (fst (frame at_end k s f l n)) r.
  Proof.
    intros k s f l n r I F. unfold frame, on_update, updated.
    pose proof (force_update l r 0 s PreUpdate n F) as F1. fold (update s PreUpdate l n) in F1.
    destruct k; [| |exact F]; destruct (fst (update s PreUpdate l n)) as [l1 n1]; cbn [fst] in F1.
    - apply force_update. exact F1.
    - destruct at_end; [exact F1|]. apply force_update. exact F1.
  Qed.
  Lemma exec_force : forall k o l n r, inv l -> force l r ->
    force (fst (fst (exec at_end k o l n))) (activated_from r [o]).
  Proof.
    intros k o l n r I F. destruct o as [r'|m|t e f c|t|v a j r'|s f]; cbn.
    - apply force_activate. exact I.
    - destruct k; [exact F| |]; (destruct m_near; [exact F|]); apply force_append; try exact F; discriminate.
    - apply (force_append l r n _ _ _ e F). destruct t; discriminate.
    - exact F.
    - exact F.
    - apply frame_force; assumption.
  Qed.
  Lemma exec_inv : forall k o l n, inv l -> n_thrown n = None -> inv (fst (fst (exec at_end k o l n))).
  Proof.
    intros k o l n I T.
    assert (D : (exists s f, o = Frame s f) \/ forall s f, o <> Frame s f).
    { destruct o; try (right; discriminate). left. eexists _, _. reflexivity. }
    destruct D as [(s & f & ->)|N].
    - cbn [exec]. pose proof (frame_inv k s f l n I T) as F.
      destruct (frame at_end k s f l n) as [l1 n1]. apply F.
    - pose proof (exec_other k o l n I T N) as F. destruct (exec at_end k o l n) as [[l1 n1] a]. apply F.
  Qed.
  Lemma execs_force : forall k os l n r, inv l -> force l r -> n_thrown n = None ->
    n_thrown (snd (execs at_end k os l n)) = None ->
    inv (fst (execs at_end k os l n)) /\ force (fst (execs at_end k os l n)) (activated_from r os).
  Proof.
    intros k. induction os as [|o os IH]; intros l n r I F T Tn; [split; assumption|]. cbn [execs] in *.
    pose proof (exec_inv k o l n I T) as I1. pose proof (exec_force k o l n r I F) as F1.
    destruct (exec at_end k o l n) as [[l1 n1] a]. cbn in I1, F1.
    destruct (n_thrown n1) eqn:T1; [cbn in Tn; congruence|].
    apply (IH l1 n1 _ I1 F1 T1 Tn).
  Qed.
  Lemma within_range : forall r (n : npc) s,
    (forall v, within r n v = true) <-> in_range r (seen_of s n).
  Proof.
    intros r n s. unfold in_range, within, current, tolerance. split; intros H v; specialize (H v).
    - apply andb_true_iff in H as [A B]. apply Qle_bool_iff in A. apply Qle_bool_iff in B.
      destruct v; split; assumption.
    - apply andb_true_iff. destruct H as [A B]. destruct v; split; apply Qle_bool_iff; assumption.
  Qed.
  (** In a frame that ends without exception all values are in the range activated last; a value is
      complained of only if it is not. A frame of the ego counts always, one of a vehicle or pedestrian
      if it is not at the end of its road. *)
  Lemma frame_thrown : forall k s f l n r, inv l -> force l r -> n_thrown n = None ->
    let n' := snd (frame at_end k s f l n) in
    k = Ego \/ (k = Driven /\ at_end (n_rest n') = false) ->
    match n_thrown n' with
    | None => match r with Some r => in_range r (seen_of s n') | None => True end
    | Some (OutOfBounds v) => match r with Some r => within r n' v = false | None => False end
    | Some (Unsynchronizable _) => True
    end.
  Proof.
    intros k s f l n r I F T n'. subst n'.
    assert (P : forall l1 n1, inv l1 -> force l1 r -> n_thrown n1 = None ->
      let n' := snd (updated s PostUpdate l1 n1) in
      match n_thrown n' with
      | None => match r with Some r => in_range r (seen_of s n') | None => True end
      | Some (OutOfBounds v) => match r with Some r => within r n' v = false | None => False end
      | Some (Unsynchronizable _) => True
      end).
    { intros l1 n1 (d1 & d2 & rest & -> & K) F1 T1. unfold updated. rewrite post_split by exact T1.
      cbn [snd]. cbv zeta.
      assert (Fr : force rest r).
      { destruct r as [r|].
        - destruct F1 as (a & b & d & El & Da & Db).
          destruct a as [|j1 a]; [cbn in El; unfold first, range_job, job_of in El; discriminate El|].
          destruct a as [|j2 a];
            [cbn in El; unfold second, range_job, job_of in El; injection El; discriminate|].
          cbn in El. injection El as _ _ El. exists a, b, d. split; [exact El|].
          inversion Da as [|? ? _ Da']; subst. inversion Da'; subst. split; assumption.
        - cbn in F1. inversion F1 as [|? ? _ F2]; subst. inversion F2; subst. assumption. }
      assert (Tc : n_thrown (counted n1) = None) by exact T1.
      pose proof (post_thrown rest r 2 s (counted n1) K Fr Tc) as H.
      pose proof (update_known rest 2 s PostUpdate (counted n1) K) as (_ & Kp & _).
      set (n2 := snd (fst (update_from 2 s PostUpdate rest (counted n1)))) in *.
      destruct (n_thrown n2) as [[v|?]|]; [|exact Logic.I|].
      - destruct r as [r|]; [|exact H]. rewrite <- H. apply within_kept. exact Kp.
      - destruct r as [r|]; [|exact Logic.I]. apply within_range. intros v. rewrite <- (H v).
        apply within_kept. exact Kp. }
    destruct (pre_inv l n s I) as (I1 & K1 & T1).
    pose proof (force_update l r 0 s PreUpdate n F) as F1. fold (update s PreUpdate l n) in F1.
    unfold frame, on_update. unfold updated in I1, T1 |- *. rewrite T in T1.
    destruct k; [| |intros [?|[? _]]; discriminate];
      destruct (fst (update s PreUpdate l n)) as [l1 n1]; cbn [fst snd] in F1, I1, T1.
    - intros _. apply (P l1 (with_step s n1) I1 F1 T1).
    - set (d := f (with_step s n1)). destruct (at_end (d_rest d)) eqn:En.
      + cbn. intros [?|[_ H]]; congruence.
      + intros _. apply (P l1 _ I1 F1). exact T1.
  Qed.
  Theorem C181_checked : forall k os r s f,
    let '(l, n) := execs at_end k os (fst (fresh r)) (snd (fresh r)) in
    n_thrown n = None ->
    let n' := snd (frame at_end k s f l n) in
    k = Ego \/ (k = Driven /\ at_end (n_rest n') = false) ->
    match n_thrown n' with
    | None => match activated os with Some r => in_range r (seen_of s n') | None => True end
    | Some (OutOfBounds v) =>
        match activated os with Some r => ~ in_range r (seen_of s n') | None => False end
    | Some (Unsynchronizable _) => True
    end.
  Proof.
    intros k os r s f. destruct (execs at_end k os (fst (fresh r)) (snd (fresh r))) as [l n] eqn:X.
    intros T n' Hk.
    pose proof (execs_force k os (fst (fresh r)) (snd (fresh r)) None (fresh_inv r)) as H.
    rewrite X in H. cbn [fst snd] in H.
    destruct H as [I F]; [repeat constructor; discriminate|reflexivity|exact T|].
    pose proof (frame_thrown k s f l n _ I F T Hk) as R. cbv zeta in R. fold n' in R.
    unfold activated_from in R. fold (activated os) in R. destruct (n_thrown n') as [[v|?]|].
    - destruct (activated os); [|exact R]. intros C. rewrite <- within_range in C.
      specialize (C v). congruence.
    - exact Logic.I.
    - exact R.
  Qed.
  (** At the end of its road an entity stands, and an object is never checked. *)
  Theorem C181_unchecked : forall k os r s f,
    let '(l, n) := execs at_end k os (fst (fresh r)) (snd (fresh r)) in
    n_thrown n = None ->
    let n' := snd (frame at_end k s f l n) in
    k = Misc \/ (k = Driven /\ at_end (n_rest n') = true) ->
    (n_speed n' = 0 /\ n_accel n' = 0 /\ n_jerk n' = 0) /\ n_thrown n' = None.
  Proof.
    intros k os r s f. destruct (execs at_end k os (fst (fresh r)) (snd (fresh r))) as [l n] eqn:X.
    intros T n'.
    pose proof (execs_force k os (fst (fresh r)) (snd (fresh r)) None (fresh_inv r)) as H.
    rewrite X in H. cbn [fst snd] in H.
    destruct H as [I F]; [repeat constructor; discriminate|reflexivity|exact T|].
    subst n'. destruct (pre_inv l n s I) as (I1 & K1 & T1). rewrite T in T1.
    unfold frame, on_update. destruct k.
    - intros [?|[? _]]; discriminate.
    - destruct (updated s PreUpdate l n) as [l1 n1]. cbn [fst snd] in *.
      set (d := f (with_step s n1)). destruct (at_end (d_rest d)) eqn:En.
      + intros _. cbn. repeat split. exact T1.
      + destruct (post_inv l1 (with_motion (d_speed d) (d_accel d) (d_jerk d) (d_rest d) (with_step s n1))
                    s I1 T1) as (_ & Kp).
        destruct Kp as (_ & _ & _ & _ & _ & _ & R). intros [?|[_ C]]; [discriminate|].
        rewrite R in C. cbn in C. congruence.
    - intros _. cbn. repeat split. exact T.
  Qed.

  (** The range asked for by the performance of an entity. *)
  Theorem C181_performance : forall vmax dec acc jmin jmax f,
    in_range (performance_range vmax dec acc jmin jmax) f <->
    (Qabs (v_speed f) <= vmax + (1 # 100)) /\
    (- dec - (1 # 100) <= v_accel f /\ v_accel f <= acc + (1 # 100)) /\
    (jmin - (1 # 100) <= v_jerk f /\ v_jerk f <= jmax + (1 # 100)).
  Proof.
    intros vmax dec acc jmin jmax f. split.
    - intros H. pose proof (H Speed) as A. pose proof (H Acceleration) as B. pose proof (H Jerk) as C.
      cbn in A, B, C. split; [apply Qabs_Qle_condition; split; lra|]. repeat split; lra.
    - intros (A & B & C). apply Qabs_Qle_condition in A. intros []; cbn; lra.
  Qed.

  (** ** C182: synchronizing with another entity. *)
  Definition sync_job (m : meeting E) (d : Q) :=
    job_of (synchronize m) nothing LinearAcceleration PostUpdate true d.
  Definition ends (m : meeting E) (l : jobs) : Prop :=
    exists d1 d2 rest d, l = first d1 :: second d2 :: rest ++ [sync_job m d] /\ Forall known rest.
  Lemma append_ends : forall l n m, inv l ->
    ends m (fst (appended (synchronize m) nothing LinearAcceleration PostUpdate l n)).
  Proof.
    intros l n m (d1 & d2 & rest & -> & K). unfold appended, append. cbn [replace].
    change (type_eqb (j_type (first d1)) LinearAcceleration) with false.
    change (type_eqb (j_type (second d2)) LinearAcceleration) with false. cbn [andb].
    destruct (replace_known rest LinearAcceleration true 2 n K) as (A & _).
    destruct (replace LinearAcceleration true 2 rest n) as [[l2 w2] cs]. cbn in *.
    exists d1, d2, l2, 0. split; [reflexivity|exact A].
  Qed.
  Lemma ends_inv : forall m l, ends m l -> inv l.
  Proof.
    intros m l (d1 & d2 & rest & d & -> & K). eexists _, _, _. split; [reflexivity|].
    apply Forall_app. split; [exact K|]. constructor; [apply KSync|constructor].
  Qed.
  Lemma pre_ends : forall m l n s, ends m l -> ends m (fst (updated s PreUpdate l n)).
  Proof.
    intros m l n s (d1 & d2 & rest & d & -> & K). unfold updated, update. cbn [update_from].
    change (event_eqb (j_event (first d1)) PreUpdate) with false.
    change (event_eqb (j_event (second d2)) PreUpdate) with false. cbn iota.
    pose proof (update_app rest [sync_job m d] 2 s PreUpdate n) as U.
    destruct (update_known rest 2 s PreUpdate n K) as (A & _).
    destruct (update_from 2 s PreUpdate (rest ++ [sync_job m d]) n) as [[l2 w2] cs]. cbn in U |- *.
    injection U as -> _. eexists _, _, _, _. split; [reflexivity|exact A].
  Qed.
  Lemma post_ends : forall m l n s, ends m l -> n_thrown n = None ->
    let l' := fst (updated s PostUpdate l n) in
    let n' := snd (updated s PostUpdate l n) in
    n_thrown n' = None ->
    kept (counted n) n' /\
    exists own, m_own m (n_rest n') = Some (Some own) /\
    match m_other m (n_rest n') with
    | Found (Some d) v =>
        0 <= d -> ends m l' /\ n_target n' = Some (meeting_speed m n' own d v)
    | Found None _ => True
    | Missing | Elsewhere => False
    end.
  Proof.
    intros m l n s H T l' n' T'.
    destruct (post_inv l n s (ends_inv m l H) T) as [_ Kp]. split; [exact Kp|].
    destruct H as (d1 & d2 & rest & d & -> & K). subst l' n'. revert T' Kp. unfold updated.
    rewrite post_split by exact T. cbn [fst snd].
    rewrite update_app. cbn [fst snd].
    destruct (update_known rest 2 s PostUpdate (counted n) K) as (A & B & _).
    set (n1 := snd (fst (update_from 2 s PostUpdate rest (counted n)))) in *.
    set (rest' := fst (fst (update_from 2 s PostUpdate rest (counted n)))) in *.
    cbn [update_from]. change (event_eqb (j_event (sync_job m d)) PostUpdate) with true. cbn iota.
    unfold M_Job.on_update. cbn [j_active sync_job job_of j_update j_duration]. unfold reached.
    destruct (n_thrown n1) as [x|] eqn:T1; [cbn; congruence|].
    unfold synchronize. destruct (m_own m (n_rest n1)) as [[own|]|] eqn:O;
      [|cbn; discriminate|cbn; discriminate].
    destruct (m_other m (n_rest n1)) as [| |[dd|] v] eqn:P; [cbn; discriminate|cbn; discriminate| |].
    - destruct (qlt dd 0) eqn:L.
      + cbn. unfold nothing. intros T' Kp. exists own. split; [exact O|]. rewrite P. intros C.
        apply qlt_spec in L. exfalso. lra.
      + cbn. intros T' Kp. exists own. split; [exact O|]. rewrite P. intros C.
        split; [|reflexivity]. exists (d1 + s), (d2 + s), rest', (d + s). split; [reflexivity|exact A].
    - cbn. unfold nothing. intros T' Kp. exists own. split; [exact O|]. rewrite P. exact Logic.I.
  Qed.
  Lemma frame_ends : forall m l n s f, ends m l -> n_thrown n = None ->
    let l' := fst (frame at_end Driven s f l n) in
    let n' := snd (frame at_end Driven s f l n) in
    n_thrown n' = None ->
    if at_end (n_rest n') then ends m l'
    else n_step n' = s /\
      exists own, m_own m (n_rest n') = Some (Some own) /\
      match m_other m (n_rest n') with
      | Found (Some d) v =>
          0 <= d -> ends m l' /\ n_target n' = Some (meeting_speed m n' own d v)
      | Found None _ => True
      | Missing | Elsewhere => False
      end.
  Proof.
    intros m l n s f H T. destruct (pre_inv l n s (ends_inv m l H)) as (_ & K1 & T1).
    pose proof (pre_ends m l n s H) as H1. unfold frame, on_update.
    destruct (updated s PreUpdate l n) as [l1 n1]. cbn [fst snd] in *. rewrite T in T1.
    set (d := f (with_step s n1)).
    set (n2 := with_motion (d_speed d) (d_accel d) (d_jerk d) (d_rest d) (with_step s n1)).
    destruct (at_end (d_rest d)) eqn:En.
    - cbn [fst snd]. intros _. cbn. rewrite En. exact H1.
    - intros T'. destruct (post_ends m l1 n2 s H1 T1 T') as (Kp & R).
      destruct Kp as (_ & _ & _ & B4 & _ & _ & B7). 
      assert (Ea : at_end (n_rest (snd (updated s PostUpdate l1 n2))) = false)
        by (transitivity (at_end (d_rest d)); [f_equal; exact B7|exact En]).
      rewrite Ea. split; [exact B4|exact R].
  Qed.
  (** The request is refused by the ego; where the entity is already, it takes the speed asked for and
      the answer is yes; else the answer is no. *)
  Theorem C182_answer : forall k m l n,
    snd (exec at_end k (Synchronize m) l n) =
    match k with Ego => Refused | _ => Answered (m_near m (n_rest n)) end /\
    (k <> Ego -> m_near m (n_rest n) = true ->
     n_target (snd (fst (exec at_end k (Synchronize m) l n))) = Some (m_speed m)).
  Proof.
    intros k m l n. cbn. destruct k; [split; [reflexivity|congruence]| |];
      (destruct m_near; split; [reflexivity|reflexivity|reflexivity|discriminate]).
  Qed.
  (** From then on, as long as the other has not passed its goal, every frame sets the speed as it should
      be, unless the other stands. *)
  Lemma meeting_next : forall m (n : npc) own d v, epsilon < Qabs v ->
    next_speed (n_speed n) (m_speed m) own d v (m_accel m (n_rest n) * n_step n)
      (m_decel m (n_rest n) * n_step n) (meeting_speed m n own d v).
  Proof.
    intros m n own d v H. unfold next_speed, meeting_speed.
    apply qlt_spec in H. rewrite H.
    assert (Eq : (n_speed n + m_speed m) / 2 * (d / v) == (n_speed n + m_speed m) * (d / v) / 2)
      by (unfold Qdiv; ring).
    destruct (qlt ((n_speed n + m_speed m) * (d / v) / 2) own) eqn:A.
    - apply qlt_spec in A. left. split; [rewrite Eq; exact A|reflexivity].
    - destruct (qlt own ((n_speed n + m_speed m) * (d / v) / 2)) eqn:B.
      + apply qlt_spec in B. right. left. split; [rewrite Eq; exact B|reflexivity].
      + apply qlt_false in A. apply qlt_false in B. right. right. split; [|reflexivity].
        rewrite Eq. apply Qle_antisym; assumption.
  Qed.
  Lemma frames_end : forall m fs l n, ends m l -> n_thrown n = None ->
    (forall x, In x (states at_end Driven fs l n) ->
       n_thrown x = None /\ (at_end (n_rest x) = true \/ awaited m (n_rest x))) ->
    exists l' n', execs at_end Driven (map (fun p => Frame (fst p) (snd p)) fs) l n = (l', n') /\
                  ends m l' /\ n_thrown n' = None.
  Proof.
    intros m. induction fs as [|[s f] fs IH]; intros l n H T W; [exists l, n; auto|].
    cbn [map execs exec fst snd]. cbn [states] in W.
    pose proof (frame_ends m l n s f H T) as F. cbv zeta in F.
    destruct (frame at_end Driven s f l n) as [l1 n1]. cbn [fst snd] in F.
    destruct (W n1 (or_introl eq_refl)) as [T1 Aw]. rewrite T1. specialize (F T1).
    apply IH; [|exact T1|intros x Hx; apply W; right; exact Hx].
    destruct (at_end (n_rest n1)); [exact F|]. destruct Aw as [?|(d & v & P & D)]; [discriminate|].
    destruct F as (_ & own & _ & F). rewrite P in F. apply F. exact D.
  Qed.
  Theorem C182_follow : forall os r m fs s f,
    let '(l, n) := execs at_end Driven os (fst (fresh r)) (snd (fresh r)) in
    n_thrown n = None -> m_near m (n_rest n) = false ->
    let '(l1, n1, _) := exec at_end Driven (Synchronize m) l n in
    (forall x, In x (states at_end Driven fs l1 n1) ->
       n_thrown x = None /\ (at_end (n_rest x) = true \/ awaited m (n_rest x))) ->
    let '(l2, n2) := execs at_end Driven (map (fun p => Frame (fst p) (snd p)) fs) l1 n1 in
    let x := snd (frame at_end Driven s f l2 n2) in
    n_thrown x = None -> at_end (n_rest x) = false ->
    exists own, m_own m (n_rest x) = Some (Some own) /\
    match m_other m (n_rest x) with
    | Found (Some d) v =>
        0 <= d -> epsilon < Qabs v ->
        exists next, n_target x = Some next /\
          next_speed (n_speed x) (m_speed m) own d v (m_accel m (n_rest x) * s)
            (m_decel m (n_rest x) * s) next
    | Found None _ => True
    | Missing | Elsewhere => False
    end.
  Proof.
    intros os r m fs s f. destruct (execs at_end Driven os (fst (fresh r)) (snd (fresh r))) as [l n] eqn:X.
    intros T N. pose proof (execs_force Driven os (fst (fresh r)) (snd (fresh r)) None (fresh_inv r)) as H.
    rewrite X in H. cbn [fst snd] in H.
    destruct H as [I _]; [repeat constructor; discriminate|reflexivity|exact T|].
    cbn [exec]. rewrite N. pose proof (append_ends l n m I) as En.
    pose proof (append_inv l n (synchronize m) nothing LinearAcceleration PostUpdate I
                  ltac:(discriminate) ltac:(discriminate) (KSync m true 0)) as (_ & _ & T1).
    rewrite T in T1.
    destruct (appended (synchronize m) nothing LinearAcceleration PostUpdate l n) as [l1 n1].
    cbn [fst snd] in En, T1. intros W.
    destruct (frames_end m fs l1 n1 En T1 W) as (l2 & n2 & R & En2 & T2). rewrite R. cbv beta iota.
    set (x := snd (frame at_end Driven s f l2 n2)). intros Tx Ex.
    pose proof (frame_ends m l2 n2 s f En2 T2 Tx) as F. fold x in F. rewrite Ex in F.
    destruct F as (St & own & O & F). exists own. split; [exact O|].
    destruct (m_other m (n_rest x)) as [| |[d|] v]; try exact F. intros D V.
    destruct (F D) as [_ Tg]. eexists. split; [exact Tg|]. rewrite <- St. apply meeting_next. exact V.
  Qed.
  (** When the other has passed its goal, or cannot reach it, the request is over: if nothing else is asked
      of the entity, no later frame sets a speed or throws. *)
  Definition over (l : jobs) (n : npc) : Prop :=
    exists d1 d2 j, l = [first d1; second d2; j] /\ j_active j = false /\ n_target n = None /\
                    n_thrown n = None.
  Lemma over_update : forall s e l n, over l n ->
    over (fst (updated s e l n)) (snd (updated s e l n)).
  Proof.
    intros s e l n (d1 & d2 & j & -> & A & Tg & T). unfold updated.
    destruct e.
    - unfold update. cbn [update_from]. change (event_eqb (j_event (first d1)) PreUpdate) with false.
      change (event_eqb (j_event (second d2)) PreUpdate) with false. cbn iota.
      unfold M_Job.on_update. rewrite A. destruct event_eqb; cbn; exists d1, d2, j; auto.
    - rewrite post_split by exact T. cbn [update_from]. unfold M_Job.on_update. rewrite A.
      destruct event_eqb; cbn; exists (d1 + s), (d2 + s), j; repeat split; auto.
  Qed.
  Lemma over_frame : forall k s f l n, over l n ->
    over (fst (frame at_end k s f l n)) (snd (frame at_end k s f l n)).
  Proof.
    intros k s f l n O. unfold frame, on_update. pose proof (over_update s PreUpdate l n O) as P.
    destruct (updated s PreUpdate l n) as [l1 n1]. cbn [fst snd] in P.
    assert (M : forall l n n', over l n -> n_target n' = n_target n -> n_thrown n' = n_thrown n -> over l n').
    { intros l0 n0 n' (d1 & d2 & j & -> & A & Tg & T) E1 E2. exists d1, d2, j. repeat split; congruence. }
    destruct k.
    - apply over_update. eapply M; [exact P|reflexivity|reflexivity].
    - destruct at_end; cbn [fst snd].
      + eapply M; [exact P|reflexivity|reflexivity].
      + apply over_update. eapply M; [exact P|reflexivity|reflexivity].
    - cbn. eapply M; [exact O|reflexivity|reflexivity].
  Qed.
  Theorem C182_passed : forall r m s f fs,
    m_near m r = false ->
    let '(l, n, _) := exec at_end Driven (Synchronize m) (fst (fresh r)) (snd (fresh r)) in
    let '(l1, n1) := frame at_end Driven s f l n in
    n_thrown n1 = None -> at_end (n_rest n1) = false ->
    (exists d v, m_other m (n_rest n1) = Found d v) -> ~ awaited m (n_rest n1) ->
    let x := snd (execs at_end Driven (map (fun p => Frame (fst p) (snd p)) fs) l1 n1) in
    n_target x = None /\ n_thrown x = None.
  Proof.
    intros r m s f fs N. cbn [exec]. cbn [n_rest snd fresh appended append fst replace]. cbn. rewrite N. cbn.
    set (n0 := with_step s _). set (d := f n0). destruct (at_end (d_rest d)) eqn:En.
    { cbn. intros _ C. congruence. }
    unfold updated, update. cbn. unfold reached, M_Job.on_update. cbn. unfold reached. cbn.
    unfold synchronize. cbn.
    destruct (m_own m (d_rest d)) as [[own|]|] eqn:O; [|cbn; discriminate|cbn; discriminate].
    assert (G : forall fs l n, over l n ->
              let x := snd (execs at_end Driven (map (fun p => Frame (fst p) (snd p)) fs) l n) in
              n_target x = None /\ n_thrown x = None).
    { clear. induction fs as [|[s f] fs IH]; intros l n O.
      - destruct O as (d1 & d2 & j & -> & A & Tg & T). split; assumption.
      - cbn [map execs exec fst snd]. pose proof (over_frame Driven s f l n O) as P.
        destruct (frame at_end Driven s f l n) as [l1 n1]. cbn [fst snd] in P.
        assert (T : n_thrown n1 = None) by (destruct P as (? & ? & ? & _ & _ & _ & T); exact T).
        rewrite T. apply IH. exact P. }
    destruct (m_other m (d_rest d)) as [| |[dd|] v] eqn:P; [cbn; discriminate|cbn; discriminate| |].
    - destruct (qlt dd 0) eqn:L; cbn.
      + intros _ _ _ _. apply G. eexists _, _, _. split; [reflexivity|]. repeat split.
      + intros _ _ _ C. exfalso. apply C. exists dd, v. split; [exact P|]. apply qlt_false. exact L.
    - cbn. intros _ _ _ _. apply G. eexists _, _, _. split; [reflexivity|]. repeat split.
  Qed.
End Npc.

(** ** What fails. *)
Definition at_rest {E} (r : E) : npc E := snd (fresh r).
(** The distance really gone is counted: that of the behaviour's speed. *)
Definition C179_driven_claim : Prop :=
  forall E (at_end : E -> bool) r s d,
  n_travelled (snd (execs at_end Driven [Frame s (fun _ => d)] (fst (fresh r)) (snd (fresh r)))) ==
  Qabs (d_speed d) * s.
Theorem C179_driven_refuted : ~ C179_driven_claim.
Proof.
  intros C. specialize (C unit (fun _ => true) tt 1 {| d_speed := 5; d_accel := 0; d_jerk := 0; d_rest := tt |}).
  vm_compute in C. discriminate.
Qed.
(** How long an entity stands still is the time since it was last seen to move. *)
Definition C180_claim (k : kind) : Prop :=
  forall E (at_end : E -> bool) os r,
  n_still (snd (execs at_end k os (fst (fresh r)) (snd (fresh r)))) ==
  since moves (watch at_end k os (fst (fresh r)) (snd (fresh r))).
Theorem C180_road_end_refuted : ~ C180_claim Driven.
Proof.
  intros C. specialize (C unit (fun _ => true)
    [Frame 1 (fun _ => {| d_speed := 0; d_accel := 0; d_jerk := 0; d_rest := tt |})] tt).
  vm_compute in C. discriminate.
Qed.
Theorem C180_object_refuted : ~ C180_claim Misc.
Proof.
  intros C. specialize (C unit (fun _ => false)
    [Frame 1 (fun _ => {| d_speed := 0; d_accel := 0; d_jerk := 0; d_rest := tt |})] tt).
  vm_compute in C. discriminate.
Qed.
(** An entity that stands still is stopped. *)
Definition C180_stopped_claim : Prop :=
  forall E (at_end : E -> bool) k os r,
  let n := snd (execs at_end k os (fst (fresh r)) (snd (fresh r))) in
  0 < n_still n -> is_stopped n = true.
Theorem C180_stopped_refuted : ~ C180_stopped_claim.
Proof.
  intros C. specialize (C unit (fun _ => false) Driven
    [Frame 1 (fun _ => {| d_speed := epsilon; d_accel := 0; d_jerk := 0; d_rest := tt |})] tt).
  vm_compute in C. specialize (C eq_refl). discriminate.
Qed.
(** An entity to meet one that stands is not told to be faster. *)
Definition meet (own : Q) (d v asked : Q) : meeting bool :=
  {| m_near := fun near => near; m_own := fun _ => Some (Some own); m_other := fun _ => Found (Some d) v;
     m_accel := fun _ => 1; m_decel := fun _ => 1; m_speed := asked |}.
Definition moving (v : Q) (near : bool) : npc bool -> drive bool :=
  fun _ => {| d_speed := v; d_accel := 0; d_jerk := 0; d_rest := near |}.
Definition running (os : list (op bool)) : npc bool :=
  snd (execs (fun _ => false) Driven os (fst (fresh false)) (snd (fresh false))).
Definition C182_standing_claim : Prop :=
  forall own d asked v s, 0 < own -> 0 < d -> 0 <= asked -> 0 < v -> 0 < s ->
  match n_target (running [Synchronize (meet own d 0 asked); Frame s (moving v false)]) with
  | Some next => next <= v
  | None => True
  end.
Theorem C182_standing_refuted : ~ C182_standing_claim.
Proof.
  intros C. specialize (C 10 10 0 5 1 eq_refl eq_refl ltac:(discriminate) eq_refl eq_refl).
  vm_compute in C. apply C. reflexivity.
Qed.
(** The speed an entity is told to take is not negative. *)
Definition C182_forward_claim : Prop :=
  forall own d w asked v s, 0 < own -> 0 < d -> 0 < w -> 0 <= asked -> 0 <= v -> 0 < s ->
  match n_target (running [Synchronize (meet own d w asked); Frame s (moving v false)]) with
  | Some next => 0 <= next
  | None => True
  end.
Theorem C182_forward_refuted : ~ C182_forward_claim.
Proof.
  intros C. specialize (C 1 10 1 5 0 1 eq_refl eq_refl eq_refl ltac:(discriminate) ltac:(discriminate) eq_refl).
  vm_compute in C. apply C. reflexivity.
Qed.
(** Once the answer is yes, the entity keeps the speed asked for. *)
Definition C182_arrived_claim : Prop :=
  forall m s v, exec (fun _ => false) Driven (Synchronize m)
      (fst (execs (fun _ => false) Driven [Synchronize m; Frame s (moving v true)]
              (fst (fresh false)) (snd (fresh false))))
      (running [Synchronize m; Frame s (moving v true)]) =
    (fst (exec (fun _ => false) Driven (Synchronize m)
      (fst (execs (fun _ => false) Driven [Synchronize m; Frame s (moving v true)]
              (fst (fresh false)) (snd (fresh false))))
      (running [Synchronize m; Frame s (moving v true)])), Answered true) ->
  n_target (running [Synchronize m; Frame s (moving v true); Synchronize m; Frame s (moving v true)]) =
  Some (m_speed m).
Theorem C182_arrived_refuted : ~ C182_arrived_claim.
Proof.
  intros C. specialize (C (meet 10 10 1 0) 1 5 eq_refl). vm_compute in C. discriminate.
Qed.

(** Beside the theorems: an entity that waits for another, is checked and goes its way. *)
Example C182_example :
  let m := meet 100 50 5 8 in
  let x := running [Activate (performance_range 20 5 5 (-10) 10); Synchronize m;
                    Frame (1 # 10) (moving 6 false); Frame (1 # 10) (moving 7 false)] in
  n_thrown x = None /\ n_travelled x == 13 # 10 /\
  (exists t, n_target x = Some t /\ t == 71 # 10) /\ n_still x == 0 /\
  n_thrown (running [Activate (performance_range 20 5 5 (-10) 10); Frame 1 (moving 21 false)])
    = Some (OutOfBounds Speed).
Proof. vm_compute. repeat split; try reflexivity. eexists. split; reflexivity. Qed.

Print Assumptions C179_distance.
Print Assumptions C180_ego.
Print Assumptions C180_driven.
Print Assumptions C180_misc.
Print Assumptions C181_checked.
Print Assumptions C181_unchecked.
Print Assumptions C181_performance.
Print Assumptions C182_answer.
Print Assumptions C182_follow.
Print Assumptions C182_passed.
Print Assumptions C179_driven_refuted.
Print Assumptions C180_road_end_refuted.
Print Assumptions C180_object_refuted.
Print Assumptions C180_stopped_refuted.
Print Assumptions C182_standing_refuted.
Print Assumptions C182_forward_refuted.
Print Assumptions C182_arrived_refuted.
