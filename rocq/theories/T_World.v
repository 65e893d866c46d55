(** * Entities of the scenario: property theorems (C43, C46, C57, C58). *)
From Coq Require Import String.
From Coq Require Import List Bool Arith QArith Lia Permutation.
From Verif Require Import M_World S_World P_World.
Import ListNotations.

(** C43. Over every history, the set of entities is what the specification says: spawning a taken name
    is rejected without effect, despawning removes exactly the named entity, and no name occurs twice. *)
Theorem C43_entities alone xs w os : acts xs (initial alone) = (w, os) ->
  effects empty xs (simulated w) os /\ NoDup (names (manager w)) /\
  (forall n e, In (n, e) (manager w) <-> simulated w n = Some e).
Proof.
  intros E. destruct (acts_spec _ _ _ _ (initial_inv alone) E) as (I & _ & F & _).
  split; [exact F |]. split; [apply (i_names _ I) |].
  intros n e. unfold simulated. now rewrite find_in by apply (i_names _ I).
Qed.
(** Rejected requests change nothing at all, in either process. *)
Theorem C43_rejected_spawn n e c w : simulated w n <> None -> spawn n e c w = (w, Threw).
Proof.
  intros F. unfold simulated in F. unfold spawn, spawn_entity.
  destruct (kind_eqb (e_kind e) Ego && any_ego (manager w)); [reflexivity |].
  destruct c; [| reflexivity]. simpl. now destruct (find n (manager w)).
Qed.
Theorem C43_rejected_despawn n w : simulated w n = None -> despawn n w = (w, false).
Proof. intros F. unfold despawn, despawn_entity. unfold simulated in F. now rewrite F. Qed.

Definition car (x : Q) : entity := {| e_kind := Vehicle; e_x := x; e_y := 0; e_z := 0 |}.
Definition ego0 : entity := {| e_kind := Ego; e_x := 0; e_y := 0; e_z := 0 |}.
Definition cone : entity := {| e_kind := Misc; e_x := 3; e_y := 4; e_z := 0 |}.
Definition history0 : list action :=
  [ Spawn "ego" ego0 true; Spawn "a" (car 1) true; Spawn "b" (car 2) true; Spawn "a" (car 7) true;
    Spawn "ego2" ego0 true; Spawn "c" cone true; Despawn "a"; Reset "b" true; Despawn "x" ]%string.
Example C43_example :
  let '(w, os) := acts history0 (initial false) in
  names (manager w) = ["b"; "c"; "ego"]%string /\
  os = [Returned true; Returned true; Returned true; Threw; Threw; Returned true; Returned true;
        Returned true; Returned false].
Proof. now vm_compute. Qed.

(** C46. A sink removes exactly the entities of its kinds within its radius, in whatever order the
    entities are visited; [C57_same_entities] says the environment simulator follows. *)
Theorem C46_sink alone xs w os k order : acts xs (initial alone) = (w, os) ->
  Permutation order (names (manager w)) ->
  exists w', sink_each k order w = Some w' /\
    (forall n e, simulated w' n = Some e <-> simulated w n = Some e /\ ~ in_reach k e) /\
    (same_entities w -> standalone w = false -> same_entities w').
Proof.
  intros E P. destruct (acts_spec _ _ _ _ (initial_inv alone) E) as (I & _ & _ & _).
  pose proof (i_names _ I) as D.
  assert (D' : NoDup order) by (eapply Permutation_NoDup; [symmetry; exact P | exact D]).
  destruct (sink_each_spec k order w D' I) as (w' & S & M & A & I' & G).
  { intros n J F. apply find_none in F. apply F. now apply (Permutation_in _ P). }
  exists w'. split; [exact S |]. split.
  - intros n e. unfold simulated. rewrite M, find_filter by exact D.
    destruct (find n (manager w)) as [v |] eqn:F; [| split; [discriminate | intros [? _]; discriminate]].
    simpl. assert (mem n order = true) as ->.
    { apply mem_in. apply (Permutation_in _ (Permutation_sym P)). now apply find_name in F. }
    simpl. destruct (sinkable k v) eqn:Q; simpl.
    + apply sinkable_iff in Q. split; [discriminate |]. intros [[= ->] N]. contradiction.
    + split; [| tauto]. intros [= ->]. split; [reflexivity |]. intros R. apply sinkable_iff in R. congruence.
  - intros (H1 & H2 & H3) SA.
    assert (AG : Agree (manager w') (server w')).
    { apply G; [exact SA |]. constructor; [intros n j; apply H1 | intros n; apply H2 | exact H3]. }
    pose proof (i_server _ I') as SI. rewrite A in SI. specialize (SI SA).
    split; [| split].
    + intros n j. split; [apply (a_list _ _ AG) |]. intros (e & F & <-). now apply (i_known _ _ SI).
    + intros n. split; [apply (a_status _ _ AG) |]. intros F.
      destruct (simulated w' n) as [e |] eqn:Z; [| congruence]. now apply (i_known _ _ SI) in Z.
    + exact (a_once _ _ AG).
Qed.
(** A negative radius removes nothing; the boundary is included. *)
Example C46_example :
  let w := fst (acts (history0 ++ [Sink {| k_x := 0; k_y := 0; k_z := 0; k_radius := 5;
                                           k_kinds := [Vehicle; Misc] |}]) (initial false)) in
  names (manager w) = ["ego"]%string /\ s_vehicles (server w) = [] /\ s_miscs (server w) = [] /\
  s_status (server w) = ["ego"]%string.
Proof. now vm_compute. Qed.
Example C46_not_in_range :
  let w := fst (acts (history0 ++ [Sink {| k_x := 0; k_y := 0; k_z := 0; k_radius := 49 # 10;
                                           k_kinds := [Vehicle; Misc] |}]) (initial false)) in
  names (manager w) = ["c"; "ego"]%string.
Proof. now vm_compute. Qed.

(** C57. Whatever happens, the environment simulator accepts every request about an entity: it never
    dies of a second ego, and it can update and draw every entity it is asked about. *)
Theorem C57_requests_accepted xs w os : acts xs (initial false) = (w, os) ->
  accepted w /\ ~ In ServerDied os.
Proof.
  intros E. split.
  - destruct (acts_spec _ _ _ _ (initial_inv false) E) as (I & S & _ & _).
    pose proof (i_server _ I S) as SI. split.
    + intros n e F. destruct (i_known _ _ SI _ _ F) as [A B]. unfold accepts_status.
      rewrite (proj2 (mem_in _ _) A). simpl. destruct (mem n (s_egos (server w))) eqn:M; simpl; [| reflexivity].
      apply mem_in in M. apply (i_running _ _ SI). intros Z. now rewrite Z in M.
    + intros n J. destruct (i_box _ _ SI _ J) as ([] & K); simpl in K; apply mem_in in K;
        unfold has_bounding_box; rewrite K, ?orb_true_r; reflexivity.
  - destruct (acts_spec _ _ _ _ (initial_inv false) E) as (_ & _ & F & _).
    clear E. induction F as [| p a q o xs r os H F IH]; [auto |].
    intros [-> | J]; [| exact (IH J)]. inversion H.
Qed.
(** The two processes hold the same entities as long as no reset of a behaviour plugin fails. *)
Theorem C57_same_entities xs w os : acts xs (initial false) = (w, os) ->
  (forall n, ~ In (Reset n false) xs) -> same_entities w.
Proof.
  intros E N. destruct (acts_spec _ _ _ _ (initial_inv false) E) as (I & S & _ & G).
  specialize (G N eq_refl initial_agree). pose proof (i_server _ I S) as SI.
  split; [| split].
  - intros n k. split; [apply (a_list _ _ G) |]. intros (e & F & <-). now apply (i_known _ _ SI).
  - intros n. split; [apply (a_status _ _ G) |]. intros F.
    destruct (simulated w n) as [e |] eqn:Z; [| congruence]. now apply (i_known _ _ SI) in Z.
  - exact (a_once _ _ G).
Qed.
(** A failing reset leaves an entity the sensors still see although it is gone from the scenario; it
    stays even after everything has been despawned. *)
Definition C57_claim : Prop := forall xs, same_entities (fst (acts xs (initial false))).
Theorem C57_same_entities_refuted : ~ C57_claim.
Proof.
  intros H. specialize (H [Spawn "a" (car 1) true; Reset "a" false; DespawnAll]%string).
  destruct H as (H & _). specialize (H "a"%string Vehicle). cbv in H.
  destruct H as [H _]. destruct H as (e & F & _); [now left | discriminate].
Qed.
Example C57_example : same_entities (fst (acts history0 (initial false))).
Proof.
  destruct (acts history0 (initial false)) as [w os] eqn:E.
  apply (C57_same_entities history0 w os E). intros n. cbv [history0 In]. intuition discriminate.
Qed.

(** C58. At most one ego, in both processes; a second one is rejected until the first is despawned. *)
Theorem C58_one_ego alone xs w os : acts xs (initial alone) = (w, os) ->
  forall n e n' e', simulated w n = Some e -> simulated w n' = Some e' ->
  e_kind e = Ego -> e_kind e' = Ego -> n = n' /\ e = e'.
Proof.
  intros E n e n' e' F F' K K'. destruct (acts_spec _ _ _ _ (initial_inv alone) E) as (I & _ & _ & _).
  assert (n = n') as <- by exact (i_unique _ I _ _ _ _ F F' K K'). split; congruence.
Qed.
Theorem C58_one_ego_sensed xs w os : acts xs (initial false) = (w, os) ->
  forall n n', sensed_as w n Ego -> sensed_as w n' Ego -> n = n'.
Proof.
  intros E n n' S S'. destruct (acts_spec _ _ _ _ (initial_inv false) E) as (I & A & _ & _).
  pose proof (i_server _ I A) as SI.
  destruct (i_ego _ _ SI _ S) as (e & F & K). destruct (i_ego _ _ SI _ S') as (e' & F' & K').
  exact (i_unique _ I _ _ _ _ F F' K K').
Qed.
Theorem C58_second_ego_rejected alone xs w os n e c : acts xs (initial alone) = (w, os) ->
  ego_present (simulated w) -> e_kind e = Ego -> spawn n e c w = (w, Threw).
Proof.
  intros E P K. destruct (acts_spec _ _ _ _ (initial_inv alone) E) as (I & _ & _ & _).
  unfold spawn, spawn_entity. rewrite (proj2 (ego_kind _) K).
  rewrite (proj2 (any_ego_iff _ (i_names _ I)) P). reflexivity.
Qed.
Theorem C58_ego_again alone xs w os n e : acts xs (initial alone) = (w, os) ->
  ~ ego_present (simulated w) -> simulated w n = None -> e_kind e = Ego ->
  snd (spawn n e true w) = Returned true /\ simulated (fst (spawn n e true w)) n = Some e.
Proof.
  intros E P F K. destruct (acts_spec _ _ _ _ (initial_inv alone) E) as (I & _ & _ & _).
  destruct (spawn n e true w) as [w' o] eqn:S.
  assert (A : act (Spawn n e true) w = (w', o)) by exact S.
  destruct (act_spec _ _ _ _ I A) as (_ & _ & X & _). simpl.
  inversion X; subst; try contradiction; try (exfalso; congruence).
  - split; [reflexivity |]. match goal with H : forall x, _ = if _ then _ else _ |- _ => rewrite H end.
    now rewrite String.eqb_refl.
Qed.
Example C58_example :
  snd (acts [Spawn "e" ego0 true; Spawn "f" ego0 true; Despawn "e"; Spawn "f" ego0 true]%string (initial false)) =
  [Returned true; Threw; Returned true; Returned true].
Proof. reflexivity. Qed.

Print Assumptions C43_entities.
Print Assumptions C43_rejected_spawn.
Print Assumptions C43_rejected_despawn.
Print Assumptions C46_sink.
Print Assumptions C57_requests_accepted.
Print Assumptions C57_same_entities.
Print Assumptions C57_same_entities_refuted.
Print Assumptions C58_one_ego.
Print Assumptions C58_one_ego_sensed.
Print Assumptions C58_second_ego_rejected.
Print Assumptions C58_ego_again.
