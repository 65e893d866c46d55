(** C227-C228: the rays of a lidar and its points. *)
From Coq Require Import Reals Lra Lia List Arith.
From Verif Require Import M_Ego M_Quaternion M_Rays S_Quaternion S_Rays P_Quaternion P_Imu.
Import ListNotations.
Local Open Scope R_scope.

(** *** C227 *)
Lemma sweep_more fuel vs h e r d k :
  sweep fuel vs h e r = Some d -> sweep (k + fuel) vs h e r = Some d.
Proof.
  revert h d. induction fuel as [| fuel IH]; intros h d; [discriminate |].
  rewrite Nat.add_succ_r. cbn [sweep]. destruct (Rle_dec h e); [| tauto].
  destruct (sweep fuel vs (h + r) e r) as [rest |] eqn:E; [| discriminate].
  rewrite (IH _ _ E). tauto.
Qed.

Lemma scan_unique vs a e r d d' : scan vs a e r d -> scan vs a e r d' -> d = d'.
Proof.
  intros (f & F) (g & G). apply (sweep_more _ _ _ _ _ _ g) in F. apply (sweep_more _ _ _ _ _ _ f) in G.
  rewrite Nat.add_comm in F. congruence.
Qed.

Lemma columns_step vs a r n :
  columns vs a r (S n) = map (fun v => from_euler 0 v (a + r)) vs ++ columns vs (a + r) r n.
Proof.
  unfold columns. cbn [seq flat_map]. f_equal.
  - apply map_ext. intros v. f_equal. cbn. ring.
  - rewrite <- seq_shift, !flat_map_concat_map, map_map. f_equal. apply map_ext. intros i.
    apply map_ext. intros v. f_equal. rewrite S_INR. ring.
Qed.

(** The columns of a scan: from one step after the start to one step after the last within the end *)
Theorem C227_columns vs a e r d : scan vs a e r d ->
  exists n, d = columns vs a r n /\
    (forall i, (i < n)%nat -> a + INR i * r <= e) /\ e < a + INR n * r.
Proof.
  intros (fuel & H). revert a d H. induction fuel as [| fuel IH]; intros a d H; [discriminate |].
  cbn [sweep] in H. destruct (Rle_dec a e) as [L | L].
  - destruct (sweep fuel vs (a + r) e r) as [rest |] eqn:E; [| discriminate]. injection H as <-.
    destruct (IH _ _ E) as (n & -> & A & B). exists (S n). split; [symmetry; apply columns_step |]. split.
    + intros [| i] I; [cbn; lra |]. rewrite S_INR. assert (I' : (i < n)%nat) by lia. specialize (A i I'). lra.
    + rewrite S_INR. lra.
  - injection H as <-. exists O. split; [reflexivity |]. split; [intros i I; lia |]. cbn. lra.
Qed.

Lemma far_enough r x : 0 < r -> exists k, x < INR k * r.
Proof.
  intros P. destruct (archimed (x / r)) as [A _]. exists (Z.to_nat (up (x / r))).
  assert (B : x / r < INR (Z.to_nat (up (x / r)))).
  { rewrite INR_IZR_INZ. apply Rlt_le_trans with (IZR (up (x / r))); [exact A |]. apply IZR_le. lia. }
  apply (Rmult_lt_compat_r r) in B; [| exact P]. replace (x / r * r) with x in B by (field; lra). exact B.
Qed.

(** A scan ends if, and only if, its resolution is positive or it is empty. *)
Theorem C227_ends vs a e r : (exists d, scan vs a e r d) <-> 0 < r \/ e < a.
Proof.
  split.
  - intros (d & S). destruct (C227_columns _ _ _ _ _ S) as (n & _ & A & B).
    destruct n as [| n]; [cbn in B; right; lra |].
    left. apply Rnot_le_lt. intros L. specialize (A n ltac:(lia)). rewrite S_INR in B. lra.
  - intros [P | L].
    + assert (Q : exists k, e < a + INR k * r).
      { destruct (far_enough r (e - a) P) as (k & K). exists k. lra. }
      destruct Q as (k & K). revert a K. induction k as [| k IH]; intros a K.
      * exists [], 1%nat. cbn [sweep]. cbn in K. destruct (Rle_dec a e); [lra | reflexivity].
      * destruct (IH (a + r)) as (d & f & F); [rewrite S_INR in K; lra |].
        destruct (Rle_dec a e) as [L | L].
        -- exists (map (fun v => from_euler 0 v (a + r)) vs ++ d), (S f). cbn [sweep].
           destruct (Rle_dec a e); [| lra]. rewrite F. reflexivity.
        -- exists [], 1%nat. cbn [sweep]. destruct (Rle_dec a e); [lra | reflexivity].
    + exists [], 1%nat. cbn [sweep]. destruct (Rle_dec a e); [lra | reflexivity].
Qed.

(** No direction within the scan is further from a column than the resolution. *)
Theorem C227_covered vs a e r d angle v : scan vs a e r d -> 0 < r -> a <= angle <= e -> In v vs ->
  exists h, angle <= h <= angle + r /\ In (from_euler 0 v h) d.
Proof.
  intros S P B V. destruct (C227_columns _ _ _ _ _ S) as (n & -> & A & E).
  assert (Q : forall n, angle < a + INR n * r ->
            exists i, (1 <= i <= n)%nat /\ angle <= a + INR i * r <= angle + r).
  { clear A E S n. intros n. induction n as [| n IH]; intros L; [cbn in L; lra |].
    destruct (Rlt_dec angle (a + INR n * r)) as [T | T].
    - destruct (IH T) as (i & I & J). exists i. split; [lia | exact J].
    - exists (Datatypes.S n). split; [lia |]. rewrite S_INR in *. lra. }
  destruct (Q n) as (i & I & J); [lra |]. exists (a + INR i * r). split; [exact J |].
  unfold columns. apply in_flat_map. exists i. split; [apply in_seq; lia |].
  apply in_map_iff. exists v. split; [reflexivity | exact V].
Qed.

(** The ray of a column and a vertical angle: the horizontal angle turns to the left, a positive
    vertical angle points down. *)
Theorem C227_ray v h :
  rotate (from_euler 0 v h) (ahead 1) = vec (cos v * cos h) (cos v * sin h) (- sin v).
Proof.
  destruct (euler_entries 0 v h) as (A & B & C & _). apply vec_eq; assumption.
Qed.

(** Whatever was asked before, the directions are those of the scan asked for. *)
Theorem C227_cached c fuel vs a e r d c' : reached c ->
  get_directions fuel c vs a e r = Some (d, c') -> scan vs a e r d.
Proof.
  intros R.
  assert (I : directions c = [] \/
              scan (was_vertical c) (was_start c) (was_end c) (was_resolution c) (directions c)).
  { clear fuel vs a e r d c'. induction R as [c E | c fuel vs a e r d c' R IH G]; [left; exact E |].
    unfold get_directions in G.
    match type of G with (if ?b then _ else _) = _ => destruct b end.
    - destruct (sweep fuel vs a e r) as [d' |] eqn:E; [| discriminate]. injection G as <- <-.
      right. exists fuel. exact E.
    - injection G as <- <-. exact IH. }
  unfold get_directions. destruct (directions c) as [| q rest] eqn:D.
  - destruct (sweep fuel vs a e r) as [d' |] eqn:E; [| discriminate]. intros [= <- <-]. exists fuel. exact E.
  - destruct I as [I | I]; [discriminate |].
    destruct (Req_EM_T (was_start c) a) as [<- | _];
      [destruct (Req_EM_T (was_end c) e) as [<- | _];
         [destruct (Req_EM_T (was_resolution c) r) as [<- | _];
            [destruct (list_eq_dec Req_EM_T (was_vertical c) vs) as [<- | _] |] |] |].
    1: intros [= <- <-]; exact I.
    all: destruct (sweep fuel _ _ _ _) as [d' |] eqn:E; [| discriminate]; intros [= <- <-]; exists fuel; exact E.
Qed.

(** A full turn in steps of a quarter has five columns; the last repeats the first. *)
Theorem C227_twice_refuted : exists d, scan [0] 0 (2 * PI) (PI / 2) d /\ List.length d = 5%nat /\
  exists p q, nth_error d 0 = Some p /\ nth_error d 4 = Some q /\ same_orientation p q.
Proof.
  pose proof PI_RGT_0 as P. eexists. split; [| split; [| do 2 eexists; split; [| split]]].
  - exists 6%nat. cbn [sweep].
    repeat (destruct (Rle_dec _ (2 * PI)) as [? | ?]; [| exfalso; lra]).
    destruct (Rle_dec _ (2 * PI)) as [? | ?]; [exfalso; lra | reflexivity].
  - reflexivity.
  - reflexivity.
  - reflexivity.
  - intros w. unfold from_euler. cbv zeta.
    replace ((0 + PI / 2 + PI / 2 + PI / 2 + PI / 2 + PI / 2) * (1 / 2)) with ((0 + PI / 2) * (1 / 2) + PI) by field.
    rewrite neg_sin, neg_cos. apply vec_eq; opened; ring.
Qed.

Example C227_case : reached (caster [] 0 0 0 []) /\ exists d, scan [0; 1] 0 (2 * PI) 1 d.
Proof. split; [apply reached_new; reflexivity | apply C227_ends; lra]. Qed.

(** *** C228 *)
Lemma entity_of_found ids n id e : entity_of ids n id = Some e ->
  (n <= e)%nat /\ nth_error ids (e - n) = Some id.
Proof.
  revert n. induction ids as [| i ids IH]; intros n; cbn [entity_of]; [discriminate |].
  destruct (entity_of ids (S n) id) as [e' |] eqn:E.
  - intros [= ->]. destruct (IH _ E) as (L & N). split; [lia |].
    replace (e - n)%nat with (S (e - S n)) by lia. exact N.
  - destruct (Nat.eqb i id) eqn:F; [| discriminate]. intros [= ->]. split; [lia |].
    rewrite Nat.sub_diag. apply Nat.eqb_eq in F. rewrite F. reflexivity.
Qed.

Lemma entity_of_some ids n id : In id ids -> exists e, entity_of ids n id = Some e.
Proof.
  revert n. induction ids as [| i ids IH]; intros n; [intros [] |]. intros [-> | I]; cbn [entity_of].
  - destruct (entity_of ids (S n) id) as [e |]; [eauto |]. rewrite Nat.eqb_refl. eauto.
  - destruct (IH (S n) I) as (e & ->). eauto.
Qed.

Section Points.
  Variable hit : R -> R -> Vec -> Vec -> option (R * nat).
  Variables (ids : list nat) (near far : R) (at_ : Vec) (heading : Quat).

  (** Every point is where a ray met the box of the entity that it is attributed to. *)
  Theorem C228_point rays k p :
    (forall o d t id, hit near far o d = Some (t, id) -> In id ids) ->
    nth_error (fst (raycast hit ids near far at_ heading rays)) k = Some p ->
    exists q t e id, In q rays /\
      hit near far at_ (rotate heading (rotate q (ahead 1))) = Some (t, id) /\
      nth_error (snd (raycast hit ids near far at_ heading rays)) k = Some e /\ nth_error ids e = Some id /\
      placed at_ heading p = along at_ (rotate heading (rotate q (ahead 1))) t.
  Proof.
    intros H. unfold raycast. cbn [fst snd]. revert k.
    induction rays as [| q rays IH]; intros k; cbn [intersect map owners]; [destruct k; discriminate |].
    change (vec 1 0 0) with (ahead 1).
    destruct (hit near far at_ (rotate heading (rotate q (ahead 1)))) as [[t id] |] eqn:E.
    - cbn [map owners fst]. destruct (entity_of_some ids 0 id (H _ _ _ _ E)) as (e & F). rewrite F.
      destruct k as [| k]; cbn [nth_error].
      + intros [= <-]. exists q, t, e, id. split; [left; reflexivity |]. split; [exact E |].
        split; [reflexivity |]. split.
        * destruct (entity_of_found _ _ _ _ F) as (_ & N). rewrite Nat.sub_0_r in N. exact N.
        * unfold placed, along, scaled. apply vec_eq; cbn [vec_x vec_y vec_z];
            generalize (rotate q (ahead 1)); intros v; opened; ring.
      + intros N. destruct (IH k N) as (q' & t' & e' & id' & I & R). exists q', t', e', id'.
        split; [right; exact I | exact R].
    - intros N. destruct (IH k N) as (q' & t' & e' & id' & I & R). exists q', t', e', id'.
      split; [right; exact I | exact R].
  Qed.

  (** A point and its entity for every ray that meets one, in the order of the rays *)
  Theorem C228_all rays :
    (forall o d t id, hit near far o d = Some (t, id) -> In id ids) ->
    let r := raycast hit ids near far at_ heading rays in
    let meets := filter (fun q => match hit near far at_ (rotate heading (rotate q (ahead 1))) with
                                  | Some _ => true | None => false end) rays in
    List.length (fst r) = List.length meets /\ List.length (snd r) = List.length meets /\
    forall k q, nth_error meets k = Some q -> exists t id,
      hit near far at_ (rotate heading (rotate q (ahead 1))) = Some (t, id) /\
      exists p, nth_error (fst r) k = Some p /\
        placed at_ heading p = along at_ (rotate heading (rotate q (ahead 1))) t.
  Proof.
    intros H. cbv zeta. unfold raycast. cbn [fst snd].
    induction rays as [| q rays (IH1 & IH2 & IH3)]; cbn [intersect map owners filter].
    - split; [reflexivity |]. split; [reflexivity |]. intros [| k]; discriminate.
    - change (vec 1 0 0) with (ahead 1).
      destruct (hit near far at_ (rotate heading (rotate q (ahead 1)))) as [[t id] |] eqn:E; [| tauto].
      cbn [map owners fst]. destruct (entity_of_some ids 0 id (H _ _ _ _ E)) as (e & ->).
      cbn [List.length]. split; [f_equal; exact IH1 |]. split; [f_equal; exact IH2 |].
      intros [| k] q'; cbn [nth_error]; [| apply IH3]. intros [= <-]. exists t, id. split; [exact E |].
      eexists. split; [reflexivity |]. unfold placed, along, scaled. apply vec_eq; cbn [vec_x vec_y vec_z];
        generalize (rotate q (ahead 1)); intros v; opened; ring.
  Qed.

  (** A point is as far away as its ray went. *)
  Theorem C228_distance rays k p : Forall unit rays -> 0 <= near ->
    (forall o d t id, hit near far o d = Some (t, id) -> near <= t <= far) ->
    nth_error (fst (raycast hit ids near far at_ heading rays)) k = Some p -> near <= length p <= far.
  Proof.
    intros U P H. unfold raycast. cbn [fst]. revert k.
    induction U as [| q rays Q U IH]; intros k; cbn [intersect map]; [destruct k; discriminate |].
    destruct (hit near far at_ _) as [[t id] |] eqn:E; [| apply IH].
    destruct k as [| k]; cbn [map nth_error fst]; [| apply IH]. intros [= <-].
    specialize (H _ _ _ _ E). replace (length (scaled t (rotate q (vec 1 0 0)))) with t; [exact H |].
    unfold length, inner, scaled. cbn [vec_x vec_y vec_z]. change (vec 1 0 0) with (ahead 1).
    destruct (orthogonal q Q) as (O & _).
    match goal with |- _ = sqrt ?x => replace x with (t * t) end; [symmetry; apply sqrt_square; lra |].
    transitivity ((vec_x (rotate q (ahead 1)) * vec_x (rotate q (ahead 1)) +
                   vec_y (rotate q (ahead 1)) * vec_y (rotate q (ahead 1)) +
                   vec_z (rotate q (ahead 1)) * vec_z (rotate q (ahead 1))) * (t * t)); [rewrite O; ring | ring].
  Qed.
End Points.

(** A wall ten metres ahead, as the only thing in the scene *)
Definition wall (near far : R) (o d : Vec) : option (R * nat) :=
  if Rlt_dec 0 (vec_x d) then
    if Rle_dec near ((10 - vec_x o) / vec_x d) then
      if Rle_dec ((10 - vec_x o) / vec_x d) far then Some ((10 - vec_x o) / vec_x d, 7%nat) else None
    else None
  else None.

Example C228_case :
  (forall near far o d t id, wall near far o d = Some (t, id) -> In id [7%nat] /\ near <= t <= far) /\
  List.length (fst (raycast wall [7%nat] 0 300 (vec 0 0 0) still [still; quat 0 0 1 0])) = 1%nat.
Proof.
  split.
  - intros near far o d t id. unfold wall.
    destruct (Rlt_dec 0 (vec_x d)); [| discriminate].
    destruct (Rle_dec near _); [| discriminate]. destruct (Rle_dec _ far); [| discriminate].
    intros [= <- <-]. split; [left; reflexivity | lra].
  - unfold raycast, wall. cbn [intersect fst]. unfold still. opened.
    repeat match goal with |- context [Rlt_dec ?a ?b] => destruct (Rlt_dec a b); [| exfalso; lra] || (destruct (Rlt_dec a b); [exfalso; lra |]) end.
    match goal with |- context [Rle_dec ?a ?b] => destruct (Rle_dec a b) as [_ | N] end.
    2: { exfalso. apply N. replace ((10 - 0) / _) with 10 by (field; lra). lra. }
    match goal with |- context [Rle_dec ?a ?b] => destruct (Rle_dec a b) as [_ | N] end.
    2: { exfalso. apply N. replace ((10 - 0) / _) with 10 by (field; lra). lra. }
    reflexivity.
Qed.
