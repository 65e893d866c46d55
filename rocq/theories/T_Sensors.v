(** * C85-C88: the sensors sample and publish on schedule and with the delays configured; what they
      detect; that lidars and detection sensors fit together; the noise *)

From Coq Require Import ZArith QArith List Bool String Lia Lqa.
From Verif Require Import M_Sensors S_Sensors P_Sensors P_Sensors2 P_Sensors3 P_SensorNoise.
Import ListNotations.
Open Scope Q_scope.

Lemma own_spec {G : geometry} c (s : status G) : own c s = true <-> s_name s = d_entity c /\ is_ego s = true.
Proof. unfold own. rewrite andb_true_iff, Nat.eqb_eq. reflexivity. Qed.

Lemma find_ego {G : geometry} c (l : list (status G)) e : find (own c) l = Some e -> the_ego c l (where_ e).
Proof.
  induction l as [|s l IH]; simpl; [discriminate|]. destruct (own c s) eqn:O.
  - intros E. injection E as ->. exists 0%nat, e. split; [reflexivity|]. split; [reflexivity|].
    split; [apply own_spec; exact O|]. intros j s J. lia.
  - intros E. destruct (IH E) as (i & e' & A & B & C & D). exists (S i), e'. split; [auto|]. split; [auto|].
    split; [auto|]. intros [|j] s' J S'; simpl in S'.
    + injection S' as <-. rewrite <- own_spec. congruence.
    + apply (D j); [lia|auto].
Qed.

(** ** C85 *)

(** The time of each frame. *)
Definition frame_times {G : geometry} (fs : list (frame G * list nat)) : list Q := map (fun x => now (fst x)) fs.

Lemma time_of_nth {G : geometry} (fs : list (frame G * list nat)) i : time_of fs i = nth i (frame_times fs) 0.
Proof.
  unfold time_of, frame_times. revert i. induction fs as [|f fs IH]; intros [|i]; simpl; auto.
Qed.

(** Without delay, a detection sensor publishes the ground truth in a frame exactly if its
    [update_duration], less 2 ms, has passed since it last did, or since its construction. *)
Theorem C85_schedule {G : geometry} {N : Type} noise c (d : detection G N) fs d' ms :
  run (detection_step noise c) d fs = Some (d', ms) -> truth_delay c <= 0 -> untrue d = [] ->
  on_schedule (d_previous d) (update_duration c) (frame_times fs) (marks (map snd ms)).
Proof.
  intros R TD U. destruct (run_sampling noise c fs d d' ms R) as (ch & S & L & M).
  rewrite U, deliver_all in M by (auto; intros x; apply compact_some). cbn [snd] in M.
  rewrite spread_all in M by exact L. rewrite M, (sampling_schedule c fs _ _ _ S). apply scheduled_spec.
Qed.

Lemma nth_marks {A B : Type} (ms : list (A * option B)) i x : nth_error ms i = Some x ->
  nth i (marks (map snd ms)) false = match snd x with Some _ => true | None => false end.
Proof. intros X. apply nth_error_nth. unfold marks. rewrite !nth_error_map, X. reflexivity. Qed.

Lemma in_numbered {B : Type} (l : list (option B)) : forall n i a, nth_error l i = Some (Some a) -> In ((n + i)%nat, a) (numbered n l).
Proof.
  induction l as [|o l IH]; intros n i a Y; [destruct i; discriminate|]. destruct i as [|i]; simpl in Y.
  - injection Y as ->. simpl. left. f_equal. lia.
  - replace (n + S i)%nat with (S n + i)%nat by lia. destruct o; cbn [numbered]; [right|]; apply IH; auto.
Qed.

(** With frames at regular times, in every [k]-th frame. *)
Theorem C85_regular {G : geometry} {N : Type} noise c (d : detection G N) fs d' ms dt k :
  run (detection_step noise c) d fs = Some (d', ms) -> truth_delay c <= 0 -> untrue d = [] -> 0 < dt ->
  (forall i t, nth_error (frame_times fs) i = Some t -> t == d_previous d + inject_Z (Z.of_nat i) * dt) ->
  (0 < k)%nat -> update_duration c - (2 # 1000) <= inject_Z (Z.of_nat k) * dt ->
  (forall k', (k' < k)%nat -> ~ update_duration c - (2 # 1000) <= inject_Z (Z.of_nat k') * dt) ->
  forall i x, nth_error ms i = Some x -> (snd x <> None <-> exists m, i = (S m * k)%nat).
Proof.
  intros R TD U DT T K1 K2 K3 i x X.
  pose proof (C85_schedule noise c d fs d' ms R TD U) as SCH.
  assert (I : (i < List.length (frame_times fs))%nat).
  { destruct SCH as [SL _]. rewrite <- SL. unfold marks. rewrite !map_length. apply nth_error_Some. congruence. }
  rewrite <- (uniform_schedule _ _ dt _ _ k DT T K1 K2 K3 SCH i I).
  rewrite (nth_marks _ _ _ X). destruct (snd x); split; congruence.
Qed.

(** The same sensor without delays. *)
Definition undelayed (c : detection_config) : detection_config :=
  DetectionConfig (d_entity c) (update_duration c) (range c) (all_in_range c) 0 0.

Lemma select_undelayed {G : geometry} c li (ego : pose G) l : forall kept,
  select (undelayed c) li ego kept l = select c li ego kept l.
Proof.
  induction l as [|s l IH]; intros kept; cbn [select]; auto.
  change (in_range (undelayed c) li ego kept s) with (in_range c li ego kept s).
  destruct (in_range c li ego kept s) as [b kept']. rewrite IH. reflexivity.
Qed.

Lemma sampling_undelayed {G : geometry} c (fs : list (frame G * list nat)) : forall previous kept,
  sampling (undelayed c) previous kept fs = sampling c previous kept fs.
Proof.
  induction fs as [|[f li] fs IH]; intros previous kept; cbn [sampling]; auto.
  change (update_duration (undelayed c)) with (update_duration c).
  change (find (own (undelayed c)) (statuses f)) with (find (own c) (statuses f)).
  destruct (due _ _ _); [|rewrite IH; reflexivity].
  destruct (find _ _); auto. rewrite select_undelayed. destruct (select _ _ _ _ _). rewrite IH. reflexivity.
Qed.

(** What a sensor publishes are the samples the sensor without delays would publish, in order, each
    in the first sampling frame in which it is old enough and its predecessor is gone; the
    detected objects with noise on the ego's pose in the frame in which they are published. *)
Theorem C85_delay {G : geometry} {N : Type} noise c (d : detection G N) fs d' ms :
  run (detection_step noise c) d fs = Some (d', ms) -> undetected d = [] -> untrue d = [] ->
  exists d0 ms0, run (detection_step noise (undelayed c)) d fs = Some (d0, ms0) /\
  let time i := nth i (frame_times fs) 0 in
  let samples := numbered 0 (map snd ms0) in
  let truth := numbered 0 (map snd ms) in
  let detected := numbered 0 (map fst ms) in
  (exists went,
     handed_on (truth_delay c) (map (fun x => time (fst x)) samples) (seq 0 (List.length samples)) went /\
     List.length truth = List.length went /\
     forall k j, nth_error went k = Some j -> exists i m i' m',
       nth_error samples k = Some (i, m) /\ nth_error samples j = Some (i', m') /\
       nth_error truth k = Some (i', m)) /\
  (exists went states,
     handed_on (detection_delay c) (map (fun x => time (fst x)) samples) (seq 0 (List.length samples)) went /\
     List.length detected = List.length went /\ nth_error states 0 = Some (d_noise d) /\
     forall k j, nth_error went k = Some j -> exists i m i' m' f ego n n' out,
       nth_error samples k = Some (i, m) /\ nth_error samples j = Some (i', m') /\
       nth_error detected k = Some (i', out) /\
       nth_error fs i' = Some f /\ the_ego c (statuses (fst f)) ego /\
       nth_error states k = Some n /\ nth_error states (S k) = Some n' /\
       noise ego n m (time i) = (n', out)).
Proof.
  intros R U1 U2. destruct (run_sampling noise c fs d d' ms R) as (ch & S & L & M).
  pose proof (run_noisy noise c fs d d' ms ch R S) as NO. rewrite U1 in NO. rewrite U2 in M.
  assert (S0 : sampling (undelayed c) (d_previous d) (d_plane d) fs = Some ch) by (rewrite sampling_undelayed; exact S).
  destruct (sampling_run noise (undelayed c) fs d ch S0) as (d0 & ms0 & R0). exists d0, ms0. split; [exact R0|].
  destruct (run_sampling noise (undelayed c) fs d d0 ms0 R0) as (ch0 & S1 & L1 & M0).
  rewrite S0 in S1. injection S1 as <-.
  rewrite U2, deliver_all in M0 by (try (cbn; lra); intros x; apply compact_some). cbn [snd] in M0.
  rewrite spread_all in M0 by exact L. rewrite M0. cbv beta zeta.
  assert (TM : map (fun x : nat * list (status G) => nth (fst x) (frame_times fs) 0) (numbered 0 ch) =
               map (fun x => time_of fs (fst x)) (numbered 0 ch)).
  { apply map_ext. intros x. symmetry. apply time_of_nth. }
  rewrite TM. split.
  - destruct (handed_samples fs ch (truth_delay c) L) as (LO & H & F).
    set (outs := snd (deliver (truth_delay c) [] (compact fs ch))) in *.
    exists (map fst (numbered 0 outs)). split; [exact H|].
    rewrite M, numbered_option_map, !map_length, spread_length by exact LO. split; [reflexivity|].
    intros k j K. rewrite nth_error_map in K.
    destruct (nth_error (numbered 0 outs) k) as [[j0 x]|] eqn:E; [|discriminate]. injection K as ->.
    destruct (F k j x E) as (i & I & _). destruct (spread_nth ch outs k j x LO E) as (i' & b & A & B).
    exists i, (fst x), i', b. rewrite nth_error_map, B. auto.
  - destruct (handed_samples fs ch (detection_delay c) L) as (LO & H & F).
    set (outs := snd (deliver (detection_delay c) [] (compact fs ch))) in *.
    destruct (noisy_nth noise c fs ch (d_noise d) outs L LO (sampling_ego c fs _ _ _ S)) as (states & ST & LEN & NT).
    exists (map fst (numbered 0 outs)), states. split; [exact H|].
    rewrite NO, map_length, LEN. split; [reflexivity|]. split; [exact ST|].
    intros k j K. rewrite nth_error_map in K.
    destruct (nth_error (numbered 0 outs) k) as [[j0 [a t]]|] eqn:E; [|discriminate]. injection K as ->.
    destruct (F k j (a, t) E) as (i & I & T). cbn [fst snd] in *.
    destruct (NT k j a t E) as (i' & b & x & e & n1 & n2 & m & A1 & A2 & A3 & A4 & A5 & A6 & A7).
    exists i, a, i', b, x, (where_ e), n1, n2, m. rewrite <- time_of_nth, <- T.
    do 4 (split; [assumption|]). split; [apply find_ego; exact A4|]. auto.
Qed.

(** Regular frames: the sample of frame [(m + 1) * k] is published in frame [(m + 1 + p) * k], where
    [p] periods are the delay, rounded up. *)
Theorem C85_regular_delay {G : geometry} {N : Type} noise c (d : detection G N) fs d' ms dt k p :
  run (detection_step noise c) d fs = Some (d', ms) -> undetected d = [] -> untrue d = [] -> 0 < dt ->
  (forall i t, nth_error (frame_times fs) i = Some t -> t == d_previous d + inject_Z (Z.of_nat i) * dt) ->
  (0 < k)%nat -> update_duration c - (2 # 1000) <= inject_Z (Z.of_nat k) * dt ->
  (forall k', (k' < k)%nat -> ~ update_duration c - (2 # 1000) <= inject_Z (Z.of_nat k') * dt) ->
  truth_delay c <= inject_Z (Z.of_nat p) * (inject_Z (Z.of_nat k) * dt) ->
  (forall p', (p' < p)%nat -> ~ truth_delay c <= inject_Z (Z.of_nat p') * (inject_Z (Z.of_nat k) * dt)) ->
  exists d0 ms0, run (detection_step noise (undelayed c)) d fs = Some (d0, ms0) /\
  (forall i x, nth_error ms i = Some x -> (snd x <> None <-> exists m, i = ((m + 1 + p) * k)%nat)) /\
  forall m a, nth_error (map snd ms) ((m + 1 + p) * k) = Some (Some a) ->
    nth_error (map snd ms0) ((m + 1) * k) = Some (Some a).
Proof.
  intros R U1 U2 DT T K1 K2 K3 P1 P2.
  destruct (C85_delay noise c d fs d' ms R U1 U2) as (d0 & ms0 & R0 & (went & H & LEN & AT) & _).
  exists d0, ms0. split; [exact R0|]. cbv beta zeta in *.
  assert (REG : forall i x, nth_error ms0 i = Some x -> (snd x <> None <-> exists m, i = (S m * k)%nat))
    by (apply (C85_regular noise (undelayed c) d fs d0 ms0 dt k R0); auto; cbn; lra).
  assert (LM : List.length ms = List.length fs /\ List.length ms0 = List.length fs).
  { destruct (run_sampling noise c fs d d' ms R) as (ch & S & L & M).
    destruct (run_sampling noise (undelayed c) fs d d0 ms0 R0) as (ch0 & S0 & L0 & M0).
    assert (Q1 : forall c0 d1 (ms1 : list (option (list (status G)) * option (list (status G)))),
        run (detection_step noise c0) d fs = Some (d1, ms1) -> List.length ms1 = List.length fs).
    { intros c0. clear. revert d. induction fs as [|f fs IH]; intros d d1 ms1 R; cbn [run] in R.
      - injection R as <- <-. reflexivity.
      - destruct (detection_step noise c0 d f) as [[s m]|]; [|discriminate].
        destruct (run _ s fs) as [[s2 ms2]|] eqn:E; [|discriminate]. injection R as <- <-. simpl. f_equal. eauto. }
    split; eapply Q1; eauto. }
  destruct LM as [LM LM0].
  set (samples := numbered 0 (map snd ms0)) in *.
  (* the samples are at the multiples *)
  assert (POS : forall q n l, (forall i x, nth_error l i = Some x -> (x <> (@None (list (status G))) <-> exists m, (n + i)%nat = (S m * k)%nat)) ->
             (forall m, (n <= S m * k)%nat <-> (q <= m)%nat) ->
             forall j y, nth_error (numbered n l) j = Some y -> fst y = (S (q + j) * k)%nat).
  { intros q n l. revert q n. induction l as [|o l IH]; intros q n A B j y Y; [destruct j; discriminate|].
    assert (NEXT : forall i x, nth_error l i = Some x -> (x <> None <-> exists m, (S n + i)%nat = (S m * k)%nat)).
    { intros i x X. rewrite (A (S i) x X). replace (n + S i)%nat with (S n + i)%nat by lia. reflexivity. }
    destruct o as [a|]; cbn [numbered] in Y.
    - assert (EX : exists m, n = (S m * k)%nat).
      { destruct (A 0%nat (Some a) eq_refl) as [A1 _]. destruct A1 as (m & E); [discriminate|]. exists m. lia. }
      destruct EX as (m0 & ->).
      assert (MQ : m0 = q).
      { assert (q <= m0)%nat by (apply B; lia). assert (S m0 * k <= S q * k)%nat by (apply B; lia).
        assert (S m0 <= S q)%nat by (apply Nat.mul_le_mono_pos_r with k; lia). lia. }
      subst m0. destruct j as [|j]; cbn [nth_error] in Y.
      + injection Y as <-. simpl. rewrite Nat.add_0_r. reflexivity.
      + replace (q + S j)%nat with (S q + j)%nat by lia. apply (IH (S q) (S (S q * k))); auto.
        intros m. split; intros X.
        * destruct (le_lt_dec (S q) m); auto. exfalso.
          assert (S m * k <= S q * k)%nat by (apply Nat.mul_le_mono_r; lia). lia.
        * assert (S (S q) * k <= S m * k)%nat by (apply Nat.mul_le_mono_r; lia). simpl in *. lia.
    - apply (IH q (S n)); auto. intros m. rewrite <- B. split; [lia|]. intros X.
      destruct (Nat.eq_dec n (S m * k)) as [E|]; [|lia]. exfalso.
      assert (@None (list (status G)) <> None); [|congruence].
      apply (A 0%nat None eq_refl). exists m. lia. }
  assert (REG' : forall i x, nth_error (map snd ms0) i = Some x -> (x <> None <-> exists m, (0 + i)%nat = (S m * k)%nat)).
  { intros i x X. rewrite nth_error_map in X. destruct (nth_error ms0 i) as [z|] eqn:Z; [|discriminate].
    injection X as <-. apply REG. exact Z. }
  assert (SPOS : forall j y, nth_error samples j = Some y -> fst y = (S j * k)%nat).
  { intros j y Y. apply (POS 0%nat 0%nat (map snd ms0)); auto. intros m. split; lia. }
  assert (STEPS : forall i t, nth_error (map (fun x => nth (fst x) (frame_times fs) 0) samples) i = Some t ->
     t == (d_previous d + inject_Z (Z.of_nat k) * dt) + inject_Z (Z.of_nat i) * (inject_Z (Z.of_nat k) * dt)).
  { intros i t E. rewrite nth_error_map in E. destruct (nth_error samples i) as [y|] eqn:Y; [|discriminate].
    injection E as <-. rewrite (SPOS _ _ Y).
    assert (X : nth_error (frame_times fs) (S i * k) = Some (nth (S i * k) (frame_times fs) 0)).
    { apply nth_error_nth'. unfold frame_times. rewrite map_length. rewrite <- (SPOS _ _ Y), <- LM0.
      rewrite <- (map_length snd ms0). unfold samples in Y. destruct y as [y1 y2]. cbn [fst].
      apply numbered_nth in Y. destruct Y as [_ Y]. apply nth_error_Some. rewrite Nat.sub_0_r in Y. congruence. }
    rewrite (T _ _ X). replace (S i * k)%nat with (k + i * k)%nat by lia.
    rewrite Nat2Z.inj_add, Nat2Z.inj_mul, inject_Z_plus, inject_Z_mult. ring. }
  assert (PP : 0 < inject_Z (Z.of_nat k) * dt).
  { apply Qmult_lt_0_compat; auto. change 0 with (inject_Z 0). rewrite <- Zlt_Qlt. lia. }
  assert (W : went = seq p (List.length samples - p)).
  { assert (LS : List.length samples = List.length (map (fun x => nth (fst x) (frame_times fs) 0) samples)) by (rewrite map_length; reflexivity).
    rewrite LS in H |- *. eapply uniform_delay; eauto. }
  set (truth := numbered 0 (map snd ms)) in *.
  (* the k-th of the published ones *)
  assert (PUB : forall q y, nth_error truth q = Some y -> fst y = ((q + 1 + p) * k)%nat /\
            nth_error samples q = Some (((q + 1) * k)%nat, snd y)).
  { intros q y Y. assert (QW : (q < List.length went)%nat) by (rewrite <- LEN; apply nth_error_Some; congruence).
    assert (E : nth_error went q = Some (p + q)%nat).
    { rewrite W in QW |- *. rewrite seq_length in QW. rewrite nth_error_nth' with (d := 0%nat) by (rewrite seq_length; lia).
      rewrite seq_nth by lia. reflexivity. }
    destruct (AT _ _ E) as (i & m & i' & m' & A & B & C). rewrite Y in C. injection C as ->. cbn [fst snd].
    pose proof (SPOS _ _ A) as X1. pose proof (SPOS _ _ B) as X2. cbn [fst] in X1, X2. subst i i'. split; [f_equal; lia|].
    rewrite A. do 2 f_equal. f_equal. lia. }
  split.
  - intros i x X. split.
    + intros NN. destruct (snd x) as [a|] eqn:SX; [|congruence].
      assert (IN : In (i, a) truth).
      { unfold truth. assert (Y : nth_error (map snd ms) i = Some (Some a)) by (rewrite nth_error_map, X; simpl; congruence).
        apply (in_numbered _ 0 _ _ Y). }
      apply In_nth_error in IN. destruct IN as (q & IN). destruct (PUB q _ IN) as [E _]. cbn in E. eauto.
    + intros (m & ->).
      (* the sample [m] exists and went *)
      assert (LT : ((m + 1 + p) * k < List.length ms)%nat) by (apply nth_error_Some; congruence).
      assert (CNT : (m + p < List.length samples)%nat).
      { destruct (le_lt_dec (List.length samples) (m + p)) as [LE|]; auto. exfalso.
        assert (X0 : exists z, nth_error ms0 ((m + 1 + p) * k) = Some z).
        { destruct (nth_error ms0 ((m + 1 + p) * k)) eqn:E; eauto. apply nth_error_None in E. lia. }
        destruct X0 as (z & Z). assert (snd z <> None) by (apply (REG _ _ Z); exists (m + p)%nat; f_equal; lia).
        destruct (snd z) as [a|] eqn:SZ; [|congruence].
        assert (IN : In (((m + 1 + p) * k)%nat, a) samples).
        { unfold samples. assert (Y : nth_error (map snd ms0) ((m + 1 + p) * k) = Some (Some a)) by (rewrite nth_error_map, Z; simpl; congruence).
          apply (in_numbered _ 0 _ _ Y). }
        apply In_nth_error in IN. destruct IN as (q & IN). pose proof (SPOS _ _ IN) as E. cbn in E.
        assert (Q : (q < List.length samples)%nat) by (apply nth_error_Some; congruence).
        assert ((m + 1 + p) * k = S q * k)%nat by exact E. assert (m + 1 + p = S q)%nat by (apply Nat.mul_cancel_r with k; lia). lia. }
      assert (TL : (m < List.length truth)%nat) by (rewrite LEN, W, seq_length; lia).
      destruct (nth_error truth m) as [y|] eqn:Y; [|apply nth_error_None in Y; lia].
      destruct (PUB _ _ Y) as [E _]. unfold truth in Y. destruct y as [y1 y2]. cbn [fst] in E.
      apply numbered_nth in Y. destruct Y as [_ Y]. rewrite Nat.sub_0_r, E, nth_error_map, X in Y.
      cbn [option_map] in Y. injection Y as ->. discriminate.
  - intros m a A. assert (IN : In (((m + 1 + p) * k)%nat, a) truth).
    { apply (in_numbered _ 0 _ _ A). }
    apply In_nth_error in IN. destruct IN as (q & IN). destruct (PUB q _ IN) as [E S]. cbn [fst snd] in *.
    assert (m + 1 + p = q + 1 + p)%nat by (apply Nat.mul_cancel_r with k; lia). assert (q = m) by lia. subst q.
    unfold samples in S. apply numbered_nth in S. destruct S as [_ S]. rewrite Nat.sub_0_r in S. exact S.
Qed.

(** Lidars: scans on schedule. *)
Theorem C85_lidar_schedule {G : geometry} (l : lidar G) fs l' ms :
  run lidar_update l fs = Some (l', ms) -> lidar_delay l <= 0 -> clouds l = [] ->
  on_schedule (l_previous l) (scan_duration l) (map now fs) (marks ms).
Proof.
  intros R LD U. destruct (lidar_run l fs l l' ms) as (ch & S & L & M); [repeat split|reflexivity|exact R|].
  rewrite U, deliver_now in M by exact LD. cbn [snd] in M. rewrite timed_now in M by exact L. subst ms.
  rewrite (lidar_samples_schedule l fs _ _ S). apply scheduled_spec.
Qed.

Definition prompt {G : geometry} (l : lidar G) : lidar G :=
  Lidar (l_entity l) (scan_duration l) 0 (rays l) (l_previous l) (l_detected l) (clouds l).

(** The scans a lidar without delay would publish, in order, each in the first frame in which it is
    old enough and its predecessor is gone. *)
Theorem C85_lidar_delay {G : geometry} (l : lidar G) fs l' ms :
  run lidar_update l fs = Some (l', ms) -> clouds l = [] ->
  exists l0 ms0, run lidar_update (prompt l) fs = Some (l0, ms0) /\
  let scans := numbered 0 ms0 in
  exists went, handed_on (lidar_delay l) (map now fs) (map fst scans) went /\
    List.length (numbered 0 ms) = List.length went /\
    forall k j, nth_error went k = Some j -> exists i m,
      nth_error scans k = Some (i, m) /\ nth_error (numbered 0 ms) k = Some (j, m).
Proof.
  intros R U. destruct (lidar_run l fs l l' ms) as (ch & S & L & M); [repeat split|reflexivity|exact R|].
  assert (SAME : same_lidar l (prompt l)) by (repeat split).
  destruct (samples_run l fs (prompt l) ch SAME S) as (l0 & ms0 & R0). exists l0, ms0. split; [exact R0|].
  assert (SAME' : same_lidar (prompt l) (prompt l)) by (repeat split).
  destruct (lidar_run (prompt l) fs (prompt l) l0 ms0 SAME' eq_refl R0) as (ch0 & S0 & L0 & M0).
  rewrite (same_samples _ _ _ SAME) in S0. change (l_previous (prompt l)) with (l_previous l) in S0.
  rewrite S in S0. injection S0 as <-.
  change (clouds (prompt l)) with (clouds l) in M0. rewrite U, deliver_now in M0 by (cbn; lra). cbn [snd] in M0.
  rewrite timed_now in M0 by exact L. subst ms0. cbv zeta. rewrite U in M.
  destruct (deliver (lidar_delay l) [] (timed fs ch)) as [q outs] eqn:D. cbn [snd] in M.
  destruct (deliver_spec _ _ _ _ D) as [F H].
  assert (T1 : map fst (timed fs ch) = map now fs).
  { unfold timed. clear -L. revert ch L. induction fs as [|f fs IH]; intros [|o ch] L; simpl in *; try discriminate; auto.
    f_equal. auto. }
  assert (T2 : forall n, map fst (pushes n (timed fs ch)) = map fst (numbered n ch) /\
                         map (fun x => fst (snd x)) (pushes n (timed fs ch)) = map snd (numbered n ch)).
  { unfold timed, pushes. clear -L. revert ch L. induction fs as [|f fs IH]; intros [|[o|] ch] L n; simpl in *; try discriminate; auto.
    destruct (IH ch ltac:(lia) (S n)) as [A B]. rewrite A, B. auto. }
  destruct (T2 0%nat) as [T3 T4]. rewrite T1, T3 in H.
  exists (map fst (numbered 0 outs)). split; [exact H|]. subst ms. rewrite numbered_option_map, !map_length.
  split; [reflexivity|]. intros k j K. rewrite nth_error_map in K.
  destruct (nth_error (numbered 0 outs) k) as [[j0 x]|] eqn:E; [|discriminate]. injection K as ->.
  assert (X : nth_error (map snd (numbered 0 ch)) k = Some (fst x)).
  { rewrite <- T4. rewrite <- map_map, <- F, map_app, nth_error_app1.
    - rewrite !nth_error_map, E. reflexivity.
    - rewrite !map_length. apply nth_error_Some. congruence. }
  rewrite nth_error_map in X. destruct (nth_error (numbered 0 ch) k) as [[i m]|] eqn:Y; [|discriminate].
  injection X as ->. exists i, (fst x). rewrite nth_error_map, E. auto.
Qed.

(** *** Example and refutation *)

Definition flat : geometry :=
  Geometry Q (fun _ => (0, 0, 1)) (fun a b => if Qle_bool a b then b - a else a - b) (fun a b _ => a + b)
    (fun _ _ => 1) (fun _ _ => 0) (fun _ => 1) (fun q => q).

Definition at_ (n : nat) (ego : bool) (x y z : Q) : status flat :=
  Status n ego (@Pose flat (x, y, z) 0) 0.

Definition quiet : pose flat -> unit -> list (status flat) -> Q -> unit * list (status flat) :=
  fun _ n l _ => (n, l).

Definition sensor (t : Q) : detection flat unit := Detection t None [] [] tt.

(** Ego 0 at the origin, entity 1 ahead, at [x]. *)
Definition scene (t x : Q) : frame flat * list nat := (Frame t [at_ 0 true 0 0 0; at_ 1 false x 0 0], []).

Definition cfg (duration delay : Q) : detection_config := DetectionConfig 0 duration 100 true delay delay.

(** Frames every 1/20 s, one in two is sampled, a delay of 1/5 s is two samples. *)
Example C85_example :
  exists d', run (detection_step quiet (cfg (1 # 10) (2 # 10))) (sensor 0)
               (map (fun i => scene (inject_Z i * (1 # 20)) (inject_Z i)) [0; 1; 2; 3; 4; 5; 6; 7; 8]%Z) =
             Some (d', [(None, None); (None, None); (None, None); (None, None); (None, None); (None, None);
                        (Some [at_ 1 false 2 0 0], Some [at_ 1 false 2 0 0]); (None, None);
                        (Some [at_ 1 false 4 0 0], Some [at_ 1 false 4 0 0])]).
Proof. vm_compute. eexists. reflexivity. Qed.

(** At most one message is published per sample: after an irregular frame, a message goes later
    than the first sample in which it is old enough.  Here the sample of time 1, with delay 1, is not
    published in the sampling frame at 5/2, but at 7/2. *)
Theorem C85_backlog_refuted :
  ~ (forall c (d : detection flat unit) fs d' ms d0 ms0,
       run (detection_step quiet c) d fs = Some (d', ms) ->
       run (detection_step quiet (undelayed c)) d fs = Some (d0, ms0) ->
       undetected d = [] -> untrue d = [] ->
       forall i j a, nth_error (map snd ms0) i = Some (Some a) ->
         (exists b, nth_error (map snd ms0) j = Some (Some b)) -> (i <= j)%nat ->
         truth_delay c <= nth j (frame_times fs) 0 - nth i (frame_times fs) 0 ->
         (forall j', (i <= j' < j)%nat -> ~ truth_delay c <= nth j' (frame_times fs) 0 - nth i (frame_times fs) 0) ->
         nth_error (map snd ms) j = Some (Some a)).
Proof.
  intros H.
  pose (fs := [scene (1 # 2) 1; scene 1 2; scene (5 # 2) 3; scene (7 # 2) 4; scene (9 # 2) 5]).
  assert (R : exists d' , run (detection_step quiet (cfg (1 # 2) 1)) (sensor 0) fs =
    Some (d', [(None, None); (None, None); (Some [at_ 1 false 1 0 0], Some [at_ 1 false 1 0 0]);
               (Some [at_ 1 false 2 0 0], Some [at_ 1 false 2 0 0]); (Some [at_ 1 false 3 0 0], Some [at_ 1 false 3 0 0])])).
  { eexists. vm_compute. reflexivity. }
  assert (R0 : exists d' , run (detection_step quiet (undelayed (cfg (1 # 2) 1))) (sensor 0) fs =
    Some (d', map (fun x => (Some [at_ 1 false x 0 0], Some [at_ 1 false x 0 0])) [1; 2; 3; 4; 5])).
  { eexists. vm_compute. reflexivity. }
  destruct R as (d' & R). destruct R0 as (d0 & R0).
  specialize (H _ _ _ _ _ _ _ R R0 eq_refl eq_refl 1%nat 2%nat [at_ 1 false 2 0 0] eq_refl
                (ex_intro _ [at_ 1 false 3 0 0] eq_refl) ltac:(lia)).
  assert (X : nth_error (map snd [(None, None); (None, None); (Some [at_ 1 false 1 0 0], Some [at_ 1 false 1 0 0]);
               (Some [at_ 1 false 2 0 0], Some [at_ 1 false 2 0 0]); (Some [at_ 1 false 3 0 0], Some [at_ 1 false 3 0 0])]) 2 = Some (Some [at_ 1 false 2 0 0])).
  { apply H.
    - vm_compute. discriminate.
    - intros j' J. assert (j' = 1%nat) by lia. subst j'. vm_compute. intros C. apply C. reflexivity. }
  discriminate X.
Qed.

(** ** C86 *)

Lemma chosen_spec {G : geometry} c li (ego p : pose G) s :
  chosen_by c li ego p s = true <-> detectable c (fun n => In n li) ego p s.
Proof.
  unfold chosen_by, detectable. rewrite !andb_true_iff, !orb_true_iff, negb_true_iff, !Qle_bool_iff.
  assert (A : own c s = false <-> ~ (s_name s = d_entity c /\ is_ego s = true)).
  { rewrite <- own_spec. destruct (own c s); split; congruence. }
  assert (B : 0 <= offset (plane_of p) (position (where_ s)) <-> on_or_above p (position (where_ s))).
  { unfold offset, plane_of, on_or_above, dot. cbn [p_normal p_offset]. split; intros H; lra. }
  assert (C : mem (s_name s) li = true <-> In (s_name s) li).
  { unfold mem. rewrite existsb_exists. split.
    - intros (n & I & E). apply Nat.eqb_eq in E. congruence.
    - intros I. exists (s_name s). rewrite Nat.eqb_refl. auto. }
  rewrite A, B, C. tauto.
Qed.

(** In any frame, an undelayed sensor reports, in their order, the entities that are detectable with
    the plane of the ego's pose in that frame or in an earlier one whose orientation differs by no
    more than 0.04. *)
Theorem C86_detected {G : geometry} {N : Type} noise c (d : detection G N) fs d' ms :
  run (detection_step noise c) d fs = Some (d', ms) -> truth_delay c <= 0 -> untrue d = [] -> d_plane d = None ->
  forall i f li dm m, nth_error fs i = Some (f, li) -> nth_error ms i = Some (dm, Some m) ->
  exists ego p, the_ego c (statuses f) ego /\ exactly (detectable c (fun n => In n li) ego p) (statuses f) m /\
    (p = ego \/ (angle G (facing ego) (facing p) <= 4 # 100 /\
       exists j y, (j < i)%nat /\ nth_error fs j = Some y /\ the_ego c (statuses (fst y)) p)).
Proof.
  intros R TD U DP i f li dm m F M. destruct (run_sampling noise c fs d d' ms R) as (ch & S & L & E).
  rewrite U, deliver_all in E by (auto; intros x; apply compact_some). cbn [snd] in E.
  rewrite spread_all in E by exact L. rewrite DP in S.
  assert (CH : nth_error ch i = Some (Some m)) by (rewrite <- E, nth_error_map, M; reflexivity).
  destruct (sampling_chosen c fs (d_previous d) None ch S i (f, li) m F CH) as (ego & p & (e & FE & ->) & -> & H).
  cbn [fst snd] in *. exists (where_ e), p. split; [apply find_ego; exact FE|]. split.
  - exists (chosen_by c li (where_ e) p). split; [apply chosen_spec|reflexivity].
  - destruct H as [->|(A & [H|(j & y & J & Y & (e' & FE' & ->))])]; [auto|discriminate|].
    right. split; [apply Qle_bool_iff; exact A|]. exists j, y. split; [auto|]. split; [auto|]. apply find_ego. exact FE'.
Qed.

(** Entities that are at most 1 m lower than the ego: the plane does not matter. *)
Corollary C86_level {G : geometry} {N : Type} noise c (d : detection G N) fs d' ms :
  run (detection_step noise c) d fs = Some (d', ms) -> truth_delay c <= 0 -> untrue d = [] -> d_plane d = None ->
  forall i f li dm m, nth_error fs i = Some (f, li) -> nth_error ms i = Some (dm, Some m) ->
  exists ego, the_ego c (statuses f) ego /\
    forall s, In s (statuses f) -> z_of (position ego) - 1 <= z_of (position (where_ s)) ->
      (In s m <-> detectable c (fun n => In n li) ego ego s).
Proof.
  intros R TD U DP i f li dm m F M.
  destruct (C86_detected noise c d fs d' ms R TD U DP i f li dm m F M) as (ego & p & E & (b & B & ->) & _).
  exists ego. split; [exact E|]. intros s I Z. rewrite filter_In, B. unfold detectable. tauto.
Qed.

(** All entities, as long as an ego turned by no more than 0.04 has stayed in its plane. *)
Corollary C86_plane {G : geometry} {N : Type} noise c (d : detection G N) fs d' ms :
  run (detection_step noise c) d fs = Some (d', ms) -> truth_delay c <= 0 -> untrue d = [] -> d_plane d = None ->
  (forall j i y x p ego, (j < i)%nat -> nth_error fs j = Some y -> nth_error fs i = Some x ->
     the_ego c (statuses (fst y)) p -> the_ego c (statuses (fst x)) ego ->
     angle G (facing ego) (facing p) <= 4 # 100 -> forall v, on_or_above p v <-> on_or_above ego v) ->
  forall i f li dm m, nth_error fs i = Some (f, li) -> nth_error ms i = Some (dm, Some m) ->
  exists ego, the_ego c (statuses f) ego /\ exactly (detectable c (fun n => In n li) ego ego) (statuses f) m.
Proof.
  intros R TD U DP SAME i f li dm m F M.
  destruct (C86_detected noise c d fs d' ms R TD U DP i f li dm m F M) as (ego & p & E & (b & B & ->) & H).
  exists ego. split; [exact E|]. exists b. split; [|reflexivity]. intros s. rewrite B.
  destruct H as [->|(A & j & y & J & Y & P)]; [tauto|]. unfold detectable.
  rewrite (SAME j i y (f, li) p ego J Y F P E A (position (where_ s))). tauto.
Qed.

(** In general the plane is out of date: an ego that was lifted by 10 m, keeping its orientation,
    detects an entity 5 m below it because it is above the old plane. *)
Definition height (t z : Q) (l : list (status flat)) : frame flat * list nat := (Frame t (at_ 0 true 0 0 z :: l), []).

Theorem C86_refuted :
  ~ (forall c (d : detection flat unit) fs d' ms,
       run (detection_step quiet c) d fs = Some (d', ms) -> truth_delay c <= 0 -> untrue d = [] -> d_plane d = None ->
       forall i f li dm m, nth_error fs i = Some (f, li) -> nth_error ms i = Some (dm, Some m) ->
       exists ego, the_ego c (statuses f) ego /\
         forall s, In s m -> detectable c (fun n => In n li) ego ego s).
Proof.
  intros H.
  pose (fs := [height 1 0 [at_ 1 false 3 0 (-2)]; height 2 10 [at_ 2 false 3 0 5]]).
  assert (R : exists d', run (detection_step quiet (cfg 1 0)) (sensor 0) fs =
                Some (d', [(Some [], Some []); (Some [at_ 2 false 3 0 5], Some [at_ 2 false 3 0 5])])).
  { eexists. vm_compute. reflexivity. }
  destruct R as (d' & R).
  destruct (H _ _ _ _ _ R ltac:(vm_compute; discriminate) eq_refl eq_refl 1%nat _ _ _ _ eq_refl eq_refl)
    as (ego & (i & e & NI & -> & [EN _] & _) & D).
  specialize (D _ (or_introl eq_refl)).
  assert (e = at_ 0 true 0 0 10).
  { destruct i as [|[|i]]; cbn in NI; [injection NI as <-; reflexivity|injection NI as <-; discriminate EN|destruct i; discriminate]. }
  subst e. destruct D as (_ & _ & [Z|Z] & _); vm_compute in Z; apply Z; reflexivity.
Qed.

Example C86_example :
  exists d', run (detection_step quiet (cfg 1 0)) (sensor 0)
    [height 1 0 [at_ 1 false 3 0 (-2); at_ 2 false 200 0 0; at_ 3 false 50 0 0; at_ 4 false 3 0 (-(1 # 2))]] =
  Some (d', [(Some [at_ 3 false 50 0 0; at_ 4 false 3 0 (-(1 # 2))], Some [at_ 3 false 50 0 0; at_ 4 false 3 0 (-(1 # 2))])]).
Proof. eexists. vm_compute. reflexivity. Qed.

(** ** C87 *)

(** Lidars with the period of the detection sensor, started with it: what it reports, in every
    frame, is what the lidars hit in that frame (in range, and so on). *)
Theorem C87_in_step {G : geometry} {N : Type} noise c ls (d : detection G N) fs st ms :
  run (sensors_update noise c) (ls, d) fs = Some (st, ms) ->
  (forall l, In l ls -> scan_duration l == update_duration c /\ l_previous l == d_previous d) ->
  truth_delay c <= 0 -> untrue d = [] -> d_plane d = None ->
  forall i f dm m, nth_error fs i = Some f -> nth_error ms i = Some (dm, Some m) ->
  exists ego p, the_ego c (statuses f) ego /\
    exactly (detectable c (fun n => exists l hits, In l ls /\ raycast l f = Some hits /\ In n hits) ego p) (statuses f) m.
Proof.
  intros R ST TD U DP i f dm m F M.
  destruct (sensors_run noise c fs ls ls d st ms) as (seens & L & RD & H); [|exact ST|exact R|].
  { clear. induction ls; constructor; auto. repeat split. }
  assert (SI : exists seen, nth_error seens i = Some seen).
  { destruct (nth_error seens i) eqn:E; eauto. apply nth_error_None in E.
    assert (i < List.length fs)%nat by (apply nth_error_Some; congruence). lia. }
  destruct SI as (seen & SI).
  assert (FI : nth_error (combine fs seens) i = Some (f, seen)).
  { clear -F SI. revert fs seens F SI. induction i as [|i IH]; intros [|a fs] [|b seens] F SI; try discriminate; simpl in *.
    - congruence.
    - apply IH; auto. }
  destruct (C86_detected noise c d (combine fs seens) _ ms RD TD U DP i f seen dm m FI M) as (ego & p & E & (b & B & ->) & _).
  exists ego, p. split; [exact E|]. exists b. split; [|reflexivity]. intros s. rewrite B. unfold detectable.
  assert (SEEN : In (s_name s) seen <-> exists l hits, In l ls /\ raycast l f = Some hits /\ In (s_name s) hits).
  { apply (H i f seen F SI).
    pose proof (C85_schedule noise c d (combine fs seens) _ ms RD TD U) as SCH.
    assert (FT : frame_times (combine fs seens) = map now fs).
    { clear -L. unfold frame_times. revert seens L. induction fs as [|x fs IH]; intros [|s seens] L; simpl in *; try discriminate; auto. f_equal. auto. }
    rewrite FT in SCH. apply on_schedule_unique in SCH. rewrite <- SCH. rewrite (nth_marks _ _ _ M). reflexivity. }
  rewrite SEEN. tauto.
Qed.

(** A lidar with a longer period detects nothing in the frames in which it does not scan, and a
    detection sensor that samples then reports nothing, although the lidar would hit the entity in
    every scan. *)
Definition eye (duration : Q) : lidar flat :=
  Lidar 0 duration 0 (fun _ l => map s_name l) 0 [] [].

Theorem C87_refuted :
  ~ (forall c ls (d : detection flat unit) fs st ms,
       run (sensors_update quiet c) (ls, d) fs = Some (st, ms) ->
       truth_delay c <= 0 -> untrue d = [] -> d_plane d = None ->
       forall i f dm m, nth_error fs i = Some f -> nth_error ms i = Some (dm, Some m) ->
       exists ego p, the_ego c (statuses f) ego /\
         exactly (detectable c (fun n => exists l hits, In l ls /\ raycast l f = Some hits /\ In n hits) ego p) (statuses f) m).
Proof.
  intros H.
  pose (fr := fun t => Frame t [at_ 0 true 0 0 0; at_ 1 false 3 0 0]).
  pose (c := DetectionConfig 0 1 100 false 0 0).
  assert (R : exists st, run (sensors_update quiet c) ([eye 2], sensor 0) [fr 1; fr 2; fr 3; fr 4] =
    Some (st, [(Some [], Some []); (Some [at_ 1 false 3 0 0], Some [at_ 1 false 3 0 0]);
               (Some [], Some []); (Some [at_ 1 false 3 0 0], Some [at_ 1 false 3 0 0])])).
  { eexists. vm_compute. reflexivity. }
  destruct R as (st & R).
  destruct (H _ _ _ _ _ _ R ltac:(vm_compute; discriminate) eq_refl eq_refl 0%nat _ _ _ eq_refl eq_refl)
    as (ego & p & (i & e & NI & -> & [EN _] & _) & (b & B & E)).
  assert (e = at_ 0 true 0 0 0).
  { destruct i as [|[|i]]; cbn in NI; [injection NI as <-; reflexivity|injection NI as <-; discriminate EN|destruct i; discriminate]. }
  subst e. cbn [fr statuses] in E.
  assert (X : b (at_ 1 false 3 0 0) = true).
  { apply B. split; [intros [C _]; discriminate C|]. split; [split; vm_compute; discriminate|].
    split; [left; vm_compute; discriminate|]. right. exists (eye 2), [1%nat]. split; [left; reflexivity|].
    split; [vm_compute; reflexivity|left; reflexivity]. }
  cbn [filter] in E. rewrite X in E. destruct (b (at_ 0 true 0 0 0)); discriminate E.
Qed.

Example C87_example :
  exists st, run (sensors_update quiet (DetectionConfig 0 1 100 false 0 0)) ([eye 1], sensor 0)
      [Frame 1 [at_ 0 true 0 0 0; at_ 1 false 3 0 0]; Frame 2 [at_ 0 true 0 0 0; at_ 1 false 300 0 0]] =
    Some (st, [(Some [at_ 1 false 3 0 0], Some [at_ 1 false 3 0 0]); (Some [], Some [])]).
Proof. eexists. vm_compute. reflexivity. Qed.

(** ** C88 *)

(** The documented parameters of the autocorrelation have no effect on the noise of version 2. *)
Theorem C88_autocorrelation_refuted {G : geometry} D (p p' : parameters) base ego t m (l : list (status G)) k :
  (forall n, ~ In n (map (append base) documented) -> number p n = number p' n) ->
  (forall n, numbers p n = numbers p' n) ->
  noise_v2 D p base ego t m l k = noise_v2 D p' base ego t m l k.
Proof. intros A B. apply same_noise_v2; auto. Qed.

(** So, unless the misspelt ones are set, which entities are reported does not depend on the past. *)
Theorem C88_memoryless {G : geometry} D (p : parameters) base ego t t' m m' (l : list (status G)) k :
  (forall n, In n misspelt -> number p (base ++ n) = None) ->
  option_map (fun r => map s_name (snd (fst r))) (noise_v2 D p base ego t m l k) =
  option_map (fun r => map s_name (snd (fst r))) (noise_v2 D p base ego t' m' l k).
Proof.
  intros A. pose proof (memoryless D p base A ego t t' l m m' k) as H.
  destruct (noise_v2 D p base ego t m l k) as [[[m1 l1] k1]|];
    destruct (noise_v2 D p base ego t' m' l k) as [[[m2 l2] k2]|]; simpl; try contradiction; auto.
  destruct H as [_ ->]. reflexivity.
Qed.

(** Every entity is reported with the probability of the first ellipse it is in: exactly if the
    number drawn, uniform in [0, 1), is less. *)
Theorem C88_rate {G : geometry} D (p : parameters) base ego t m (s : status G) k m' l' k' :
  (forall n, In n misspelt -> number p (base ++ n) = None) ->
  noise_v2 D p base ego t m [s] k = Some (m', l', k') ->
  exists rate,
    value_at (get_number p (base ++ "true_positive.rate.ellipse_normalized_x_radius"))
      (get_numbers p (base ++ "ellipse_y_radii")) (get_numbers p (base ++ "true_positive.rate.values"))
      (x_of (position (where_ s)) - x_of (position ego)) (y_of (position (where_ s)) - y_of (position ego)) rate /\
    (l' <> [] <-> uniform D (k' - 1) < rate).
Proof.
  intros A R. cbn [noise_v2] in R.
  destruct (noise_one D p base ego t m s k) as [[[m1 o1] k1]|] eqn:E; cbn [bind] in R; [|discriminate].
  injection R as <- <- <-. destruct (noise_one_now D p base A _ _ _ _ _ _ _ _ E) as (_ & _ & rate & S & H).
  exists rate. split; [apply (selector_spec _ _ _ _ "true_positive.rate"); exact S|].
  rewrite <- H. destruct o1; split; congruence.
Qed.

(** An entity outside all ellipses, or in one with rate 0, is never reported. *)
Theorem C88_beyond {G : geometry} D (p : parameters) base ego t m (l : list (status G)) k m' l' k' :
  (forall n, In n misspelt -> number p (base ++ n) = None) -> (forall i, 0 <= uniform D i) ->
  noise_v2 D p base ego t m l k = Some (m', l', k') ->
  forall s', In s' l' -> exists s rate, In s l /\ s_name s = s_name s' /\ 0 < rate /\
    value_at (get_number p (base ++ "true_positive.rate.ellipse_normalized_x_radius"))
      (get_numbers p (base ++ "ellipse_y_radii")) (get_numbers p (base ++ "true_positive.rate.values"))
      (x_of (position (where_ s)) - x_of (position ego)) (y_of (position (where_ s)) - y_of (position ego)) rate.
Proof.
  intros A U R s' I. destruct (published_rate D p base A ego t l U m k m' l' k' R s' I) as (s & rate & A1 & A2 & A3 & A4).
  exists s, rate. split; [auto|]. split; [auto|]. split; [auto|].
  apply (selector_spec _ _ _ _ "true_positive.rate"). exact A3.
Qed.

(** Version 1: no deviation and no losses: nothing changes; probability 1: nothing is reported. *)
Theorem C88_v1 {G : geometry} D sd pr (l : list (status G)) k :
  (forall i, 0 <= uniform D i < 1) ->
  (sd == 0 -> pr <= 0 -> Forall2 same_place l (snd (fst (noise_v1 D None sd pr l k)))) /\
  (1 <= pr -> snd (fst (noise_v1 D None sd pr l k)) = []).
Proof.
  intros U. unfold noise_v1. cbn [fst snd]. destruct (shift D sd l k) as [l1 k1] eqn:S. split.
  - intros Z P. pose proof (lose_none D l1 pr k1 P (fun i => proj1 (U i))) as L.
    destruct (lose D pr l1 k1) as [l2 k2]. cbn [fst snd] in *. subst l2. eapply shift_0; eauto.
  - intros P. pose proof (lose_all D l1 pr k1 P (fun i => proj2 (U i))) as L.
    destruct (lose D pr l1 k1) as [l2 k2]. exact L.
Qed.

(** But only the first sensor's configuration counts: a second sensor, told not to lose anything,
    may lose everything. *)
Theorem C88_v1_statics_refuted {G : geometry} D sd pr sd' pr' (l l2 : list (status G)) k :
  let '(statics, _, k') := noise_v1 D None sd pr l k in
  noise_v1 D statics sd' pr' l2 k' = noise_v1 D None sd pr l2 k'.
Proof.
  unfold noise_v1. destruct (shift D _ l k) as [l1 k1]. destruct (lose D _ l1 k1) as [l3 k3]. reflexivity.
Qed.

Example C88_v1_statics_example :
  let D := Draws (fun _ => 0) (fun _ => 1 # 2) in
  let '(statics, _, k) := noise_v1 D None 0 1 [at_ 1 false 3 0 0] 0 in
  snd (fst (noise_v1 D statics 0 0 [at_ 2 false 3 0 0] k)) = [] /\
  snd (fst (noise_v1 D None 0 0 [at_ 2 false 3 0 0] k)) = [at_ 2 false (3 + 0) (0 + 0) 0].
Proof. vm_compute. auto. Qed.

(** Version 3: an entity is missing from the first message it should be in; one that matches no
    configuration is in all later ones as it is. *)
Theorem C88_v3 {G : geometry} D (p : parameters) matching topic (ego ego' : pose G) t t' m l k m' l' k' l2 :
  NoDup (map s_name l) -> NoDup (map s_name l2) ->
  noise_v3 D p matching topic ego t m l k = Some (m', l', k') ->
  (forall s, In s l -> lookup (s_name s) m = None -> ~ In (s_name s) (map s_name l')) /\
  (forall m2 l2' k2, noise_v3 D p matching topic ego' t' m' l2 k' = Some (m2, l2', k2) ->
   forall s s2, In s l -> In s2 l2 -> s_name s2 = s_name s -> lookup (s_name s) m = None ->
     matching s = ""%string -> In s2 l2').
Proof.
  intros ND ND2 R. destruct (noise_v3_spec D p matching topic ego t l ND m k m' l' k' R) as (A & B & C & E).
  split.
  - intros s I LK IN. apply in_map_iff in IN. destruct IN as (s' & NM & IN).
    destruct (A s' IN) as (s0 & I0 & N0 & L0). rewrite <- N0, NM in L0. contradiction.
  - intros m2 l2' k2 R2 s s2 I I2 NM LK MT.
    destruct (E s I LK) as (o & LO & CO).
    destruct (noise_v3_spec D p matching topic ego' t' l2 ND2 m' k' m2 l2' k2 R2) as (_ & B2 & _).
    apply (B2 s2 o I2); congruence.
Qed.

Definition params : parameters :=
  Parameters
    (fun n => if (n =? "t.ego.distance.mean.ellipse_normalized_x_radius")%string then Some 1
              else if (n =? "t.ego.true_positive.rate.ellipse_normalized_x_radius")%string then Some 2 else None)
    (fun n => if (n =? "t.ego.ellipse_y_radii")%string then Some [10; 20]
              else if (n =? "t.ego.true_positive.rate.values")%string then Some [1; 1 # 4] else Some [0; 0]).

(** With rates 1 within 10 m and 1/4 within 20 m (twice as far ahead), and 1/2 drawn. *)
Example C88_example :
  (forall n, In n misspelt -> number params ("t.ego." ++ n) = None) /\
  exists m k, noise_v2 (Draws (fun _ => 0) (fun _ => 1 # 2)) params "t.ego." (where_ (at_ 0 true 0 0 0)) 0 []
    [at_ 1 false 19 0 0; at_ 2 false 21 0 0; at_ 3 false 50 0 0] 0 = Some (m, [at_ 1 false (19 + (0 + 0)) 0 0], k).
Proof.
  split.
  - intros n I. vm_compute in I. repeat (destruct I as [<-|I]; [reflexivity|]). destruct I.
  - vm_compute. eexists. eexists. reflexivity.
Qed.

Example C88_v3_example :
  let run2 l := match noise_v3 (G := flat) (Draws (fun _ => 0) (fun _ => 1 # 2)) params (fun _ => ""%string) "t." (where_ (at_ 0 true 0 0 0)) 0 [] l 0 with
    | Some (m, l1, k) => match noise_v3 (G := flat) (Draws (fun _ => 0) (fun _ => 1 # 2)) params (fun _ => ""%string) "t." (where_ (at_ 0 true 0 0 0)) 1 m l k with
        | Some (_, l2, _) => Some (l1, l2) | None => None end
    | None => None end in
  run2 [at_ 1 false 19 0 0; at_ 2 false 21 0 0] = Some ([], [at_ 1 false 19 0 0; at_ 2 false 21 0 0]).
Proof. vm_compute. reflexivity. Qed.

Print Assumptions C85_schedule.
Print Assumptions C85_delay.
Print Assumptions C85_regular_delay.
Print Assumptions C85_lidar_delay.
Print Assumptions C86_detected.
Print Assumptions C87_in_step.
Print Assumptions C88_autocorrelation_refuted.
Print Assumptions C88_rate.
Print Assumptions C88_v3.
