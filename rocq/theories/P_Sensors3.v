(** * Proofs about the sensors: lidars and noise *)

From Coq Require Import ZArith QArith List Bool String Lia Lqa.
From Verif Require Import M_Sensors S_Sensors P_Sensors P_Sensors2.
Import ListNotations.
Open Scope Q_scope.

(** ** Lidars *)
Section lidars.
Context {G : geometry}.

Fixpoint lidar_samples (l : lidar G) (previous : Q) (fs : list (frame G)) : option (list (option (list nat))) :=
  match fs with
  | [] => Some []
  | f :: r =>
      if due (now f) previous (scan_duration l) then
        match raycast l f with
        | None => None
        | Some d => option_map (cons (Some d)) (lidar_samples l (now f) r)
        end
      else option_map (cons None) (lidar_samples l previous r)
  end.

Definition same_lidar (l l' : lidar G) : Prop :=
  l_entity l' = l_entity l /\ scan_duration l' = scan_duration l /\ rays l' = rays l.

Lemma same_raycast l l' f : same_lidar l l' -> raycast l' f = raycast l f.
Proof. intros (A & B & C). unfold raycast. rewrite A, C. reflexivity. Qed.

Lemma same_samples l l' fs : same_lidar l l' -> forall previous,
  lidar_samples l' previous fs = lidar_samples l previous fs.
Proof.
  intros S. induction fs as [|f fs IH]; intros previous; simpl; auto.
  rewrite (same_raycast _ _ _ S). destruct S as (A & B & C). rewrite B.
  destruct (due _ _ _); [destruct (raycast l f); rewrite ?IH; auto|rewrite IH; auto].
Qed.

Definition timed (fs : list (frame G)) (ch : list (option (list nat))) : list (Q * option (list nat)) :=
  combine (map now fs) ch.

Lemma lidar_run l fs : forall l0 l' ms, same_lidar l l0 -> lidar_delay l0 = lidar_delay l ->
  run lidar_update l0 fs = Some (l', ms) ->
  exists ch, lidar_samples l (l_previous l0) fs = Some ch /\ List.length ch = List.length fs /\
    ms = map (option_map fst) (snd (deliver (lidar_delay l) (clouds l0) (timed fs ch))).
Proof.
  induction fs as [|f fs IH]; intros l0 l' ms S DE R; cbn [run] in R.
  - injection R as <- <-. exists []. auto.
  - unfold lidar_update in R at 1. rewrite (same_raycast _ _ f S) in R.
    pose proof S as (A & B & C). rewrite B in R. cbn [lidar_samples].
    destruct (due (now f) (l_previous l0) (scan_duration l)) eqn:DUE.
    + destruct (raycast l f) as [d|]; [|discriminate]. cbn [clouds l_previous l_detected] in R.
      destruct (release (now f) (lidar_delay l0) (clouds l0 ++ [(d, now f)])) as [q out] eqn:REL.
      destruct (run _ _ fs) as [[l2 ms2]|] eqn:R2; [|discriminate]. injection R as <- <-.
      destruct (IH (Lidar (l_entity l0) (scan_duration l) (lidar_delay l0) (rays l0) (now f) d q) l2 ms2
                ltac:(repeat split; auto) DE R2) as (ch & E1 & E2 & E3). cbn [l_previous clouds] in *.
      rewrite E1. exists (Some d :: ch). split; [reflexivity|]. split; [simpl; auto|].
      unfold timed in *. cbn [map combine deliver push fst]. rewrite <- DE, REL. rewrite DE.
      destruct (deliver _ q _) as [q' outs]. cbn [snd map] in *. rewrite E3. reflexivity.
    + cbn [clouds l_previous l_detected] in R.
      destruct (release (now f) (lidar_delay l0) (clouds l0)) as [q out] eqn:REL.
      destruct (run _ _ fs) as [[l2 ms2]|] eqn:R2; [|discriminate]. injection R as <- <-.
      destruct (IH (Lidar (l_entity l0) (scan_duration l) (lidar_delay l0) (rays l0) (l_previous l0) [] q) l2 ms2
                ltac:(repeat split; auto) DE R2) as (ch & E1 & E2 & E3). cbn [l_previous clouds] in *.
      rewrite E1. exists (None :: ch). split; [reflexivity|]. split; [simpl; auto|].
      unfold timed in *. cbn [map combine deliver push fst]. rewrite app_nil_r, <- DE, REL. rewrite DE.
      destruct (deliver _ q _) as [q' outs]. cbn [snd map] in *. rewrite E3. reflexivity.
Qed.

Lemma samples_run l fs : forall l0 ch, same_lidar l l0 ->
  lidar_samples l (l_previous l0) fs = Some ch -> exists l' ms, run lidar_update l0 fs = Some (l', ms).
Proof.
  induction fs as [|f fs IH]; intros l0 ch S E; cbn [run]; [eauto|].
  unfold lidar_update at 1. rewrite (same_raycast _ _ f S). pose proof S as (A & B & C). rewrite B.
  cbn [lidar_samples] in E. destruct (due (now f) (l_previous l0) (scan_duration l)).
  - destruct (raycast l f) as [d|]; [|discriminate]. cbn [clouds l_previous l_detected].
    destruct (release _ _ _) as [q out]. destruct (lidar_samples l (now f) fs) as [ch'|] eqn:E'; [|discriminate].
    destruct (IH (Lidar (l_entity l0) (scan_duration l) (lidar_delay l0) (rays l0) (now f) d q) ch'
                ltac:(repeat split; auto) E') as (l' & ms & ->). eauto.
  - cbn [clouds l_previous l_detected]. destruct (release _ _ _) as [q out].
    destruct (lidar_samples l (l_previous l0) fs) as [ch'|] eqn:E'; [|discriminate].
    destruct (IH (Lidar (l_entity l0) (scan_duration l) (lidar_delay l0) (rays l0) (l_previous l0) [] q) ch'
                ltac:(repeat split; auto) E') as (l' & ms & ->). eauto.
Qed.

Lemma lidar_samples_schedule l fs : forall previous ch,
  lidar_samples l previous fs = Some ch -> marks ch = scheduled (scan_duration l) previous (map now fs).
Proof.
  induction fs as [|f fs IH]; intros previous ch S; cbn [lidar_samples] in S.
  - injection S as <-. reflexivity.
  - cbn [map scheduled]. destruct (due _ _ _).
    + destruct (raycast l f); [|discriminate]. destruct (lidar_samples l (now f) fs) eqn:E; [|discriminate].
      injection S as <-. cbn [marks map]. f_equal. eapply IH. eauto.
    + destruct (lidar_samples l previous fs) eqn:E; [|discriminate].
      injection S as <-. cbn [marks map]. f_equal. eapply IH. eauto.
Qed.

Lemma deliver_now {B : Type} delay (l : list (Q * option B)) : delay <= 0 ->
  deliver delay [] l = ([], map (fun x => option_map (fun a => (a, fst x)) (snd x)) l).
Proof.
  intros D. induction l as [|[t [a|]] l IH]; simpl.
  - reflexivity.
  - replace (Qle_bool delay (t - t)) with true by (symmetry; apply Qle_bool_iff; lra). rewrite IH. reflexivity.
  - rewrite IH. reflexivity.
Qed.

Lemma timed_now (fs : list (frame G)) : forall ch, List.length ch = List.length fs ->
  map (option_map fst) (map (fun x : Q * option (list nat) => option_map (fun a => (a, fst x)) (snd x)) (timed fs ch)) = ch.
Proof.
  induction fs as [|f fs IH]; intros [|[d|] ch] L; simpl in *; try discriminate; auto.
  - f_equal. apply IH. lia.
  - f_equal. apply IH. lia.
Qed.

(** ** Lidars in step with a detection sensor *)

Lemma in_merge n l : forall seen, In n (merge seen l) <-> In n seen \/ In n l.
Proof.
  unfold merge. induction l as [|a l IH]; intros seen; simpl; [tauto|].
  rewrite IH. unfold mem. destruct (existsb (Nat.eqb a) seen) eqn:E.
  - apply existsb_exists in E. destruct E as (b & I & EQ). apply Nat.eqb_eq in EQ. subst b.
    split; [tauto|]. intros [H|[<-|H]]; auto.
  - rewrite in_app_iff. simpl. tauto.
Qed.

Lemma due_morph t p p' d d' : p == p' -> d == d' -> due t p d = due t p' d'.
Proof. intros P D. apply eq_true_iff_eq. rewrite !due_spec, P, D. reflexivity. Qed.

Lemma lidars_scan fr dur prev ls : forall ls0 seen ls' seen',
  Forall2 same_lidar ls0 ls ->
  (forall l, In l ls -> scan_duration l == dur /\ l_previous l == prev) ->
  lidars_update ls fr seen = Some (ls', seen') ->
  Forall2 same_lidar ls0 ls' /\
  (forall l, In l ls' -> scan_duration l == dur /\ l_previous l == (if due (now fr) prev dur then now fr else prev)) /\
  (due (now fr) prev dur = true -> forall n, In n seen' <->
     In n seen \/ exists l hits, In l ls0 /\ raycast l fr = Some hits /\ In n hits).
Proof.
  induction ls as [|l ls IH]; intros ls0 seen ls' seen' F ST U; inversion F; subst; cbn [lidars_update] in U.
  - injection U as <- <-. split; [constructor|]. split; [intros l []|]. intros _ n. split; [auto|].
    intros [|(l & h & [] & _)]; auto.
  - match goal with A : same_lidar _ l, B : Forall2 same_lidar ?k ls |- _ => rename A into S; rename B into F' end.
    destruct (lidar_update l fr) as [[l1 out]|] eqn:U1; [|discriminate].
    destruct (lidars_update ls fr (merge seen (l_detected l1))) as [[r' sn]|] eqn:U2; [|discriminate].
    injection U as <- <-.
    destruct (IH _ _ _ _ F' (fun x X => ST x (or_intror X)) U2) as (A & B & C).
    destruct (ST l (or_introl eq_refl)) as [SD SP].
    unfold lidar_update in U1. rewrite (same_raycast _ _ fr S) in U1.
    rewrite (due_morph (now fr) (l_previous l) prev (scan_duration l) dur SP SD) in U1.
    destruct (due (now fr) prev dur) eqn:DUE.
    + destruct (raycast x fr) as [d|] eqn:RC; [|discriminate]. cbn [clouds l_previous l_detected] in U1.
      destruct (release _ _ _) as [q o]. injection U1 as <- <-. cbn [l_detected] in *.
      destruct S as (S1 & S2 & S3).
      split; [constructor; [repeat split; auto|auto]|].
      split; [intros k [<-|K]; [cbn; split; [auto|reflexivity]|apply B; auto]|].
      intros _ n. rewrite (C eq_refl n), in_merge. split.
      * intros [[H|H]|(k & h & I & J & K)]; [auto| |right; exists k, h; simpl; auto].
        right. exists x, d. simpl. auto.
      * intros [H|(k & h & [<-|I] & J & K)]; [auto| |right; exists k, h; auto].
        rewrite RC in J. injection J as <-. auto.
    + cbn [clouds l_previous l_detected] in U1. destruct (release _ _ _) as [q o]. injection U1 as <- <-.
      destruct S as (S1 & S2 & S3).
      split; [constructor; [repeat split; auto|auto]|].
      split; [intros k [<-|K]; [cbn; auto|apply B; auto]|]. discriminate.
Qed.

Context {N : Type}.
Variable noise : pose G -> N -> list (status G) -> Q -> N * list (status G).

Lemma sensors_run c fs ls0 : forall ls d st ms, Forall2 same_lidar ls0 ls ->
  (forall l, In l ls -> scan_duration l == update_duration c /\ l_previous l == d_previous d) ->
  run (sensors_update noise c) (ls, d) fs = Some (st, ms) ->
  exists seens, List.length seens = List.length fs /\
    run (detection_step noise c) d (combine fs seens) = Some (snd st, ms) /\
    forall i f seen, nth_error fs i = Some f -> nth_error seens i = Some seen ->
      nth i (scheduled (update_duration c) (d_previous d) (map now fs)) false = true ->
      forall n, In n seen <-> exists l hits, In l ls0 /\ raycast l f = Some hits /\ In n hits.
Proof.
  induction fs as [|f fs IH]; intros ls d st ms F ST R; cbn [run] in R.
  - injection R as <- <-. exists []. repeat split; auto; destruct i; discriminate.
  - unfold sensors_update in R at 1. cbn [fst snd] in R.
    destruct (lidars_update ls f []) as [[ls1 seen]|] eqn:U; [|discriminate].
    destruct (detection_update noise c d f seen) as [[[d1 m1] m2]|] eqn:DU; [|discriminate].
    destruct (run _ _ fs) as [[st2 ms2]|] eqn:R2; [|discriminate]. injection R as <- <-.
    destruct (lidars_scan f (update_duration c) (d_previous d) ls ls0 [] ls1 seen F ST U) as (A & B & C).
    assert (PR : d_previous d1 = if due (now f) (d_previous d) (update_duration c) then now f else d_previous d).
    { unfold detection_update in DU. destruct (due _ _ _).
      - destruct (find _ _); [|discriminate]. destruct (select _ _ _ _ _) as [ch kp].
        destruct (release _ (detection_delay c) _) as [q1 o1]. destruct (match o1 with Some _ => _ | None => _ end) as [nn mm].
        destruct (release _ (truth_delay c) _). injection DU as <- _ _. reflexivity.
      - injection DU as <- _ _. reflexivity. }
    destruct (IH ls1 d1 st2 ms2 A) as (seens & L & RUN & H); [|exact R2|].
    { intros l I. rewrite PR. auto. }
    exists (seen :: seens). split; [simpl; auto|]. split.
    + cbn [combine run]. unfold detection_step at 1. cbn [fst snd]. rewrite DU, RUN. reflexivity.
    + intros [|i] f0 s F0 S0 M n; cbn [nth_error] in *.
      * injection F0 as <-. injection S0 as <-. cbn [map scheduled] in M.
        destruct (due (now f) (d_previous d) (update_duration c)); [|discriminate].
        rewrite (C eq_refl n). simpl. tauto.
      * apply (H i f0 s F0 S0). rewrite PR. cbn [map scheduled] in M.
        destruct (due (now f) (d_previous d) (update_duration c)); exact M.
Qed.
End lidars.
