(** * Theorems about traffic lights (C32-C36, C61-C63). *)
From Coq Require Import Ascii String List Bool Arith ZArith Permutation Lia.
From Verif Require Import M_TrafficLight S_TrafficLight P_TrafficLight P_TrafficLightSet P_TrafficLightChan.
Import ListNotations.
Local Open Scope list_scope.

(** Orders and a map for the examples: relation 100 refers to the ways 1 and 2. *)
Definition co0 := map fst color_table.
Definition so0 := map fst status_table.
Definition ho0 := map fst shape_table.
Lemma order0 : some_order co0 so0 ho0.
Proof. repeat split; apply Permutation_refl. Qed.
Definition road0 : road :=
  {| is_way := fun i => (i =? 1)%Z || (i =? 2)%Z || (i =? 3)%Z;
     relation := fun i => if (i =? 100)%Z then Some [1; 2]%Z else None;
     relations_of := fun i => if (i =? 3)%Z then [] else [100]%Z |}.
Lemma road0_ok : road_ok road0.
Proof.
  intros r ws H. cbn in H. destruct (r =? 100)%Z; [|discriminate]. injection H as <-.
  repeat constructor.
Qed.

(** ** C32: texts print and parse back *)

(** Any bulb, any iteration order of the name tables. *)
Theorem C32_bulb_round_trip : forall co so ho b, some_order co so ho ->
  bulb_make co so ho (print_bulb b) = Some b.
Proof. intros co so ho b O. apply (bulb_make_iff co so ho _ b O). apply print_reads. Qed.

(** A whole light, i.e. any set of bulbs (the empty one included). *)
Theorem C32_light_round_trip : forall co so ho l, some_order co so ho -> bulb_set l ->
  set_state co so ho [] (print_light l) = Set_ok l.
Proof.
  intros co so ho l O B.
  destruct (set_state_ok co so ho O _ _ (print_text l) [] set_nil) as (l' & E & S & I).
  rewrite E. f_equal. apply bulb_set_ext; auto. intros b. rewrite I. cbn. tauto.
Qed.

(** The parser accepts exactly the documented texts and gives them their documented meaning,
    whatever the iteration order of the tables. *)
Theorem C32_parser_exact : forall co so ho s b, some_order co so ho ->
  (bulb_make co so ho s = Some b <-> reads s b).
Proof. exact bulb_make_iff. Qed.
Theorem C32_states_exact : forall co so ho s l, some_order co so ho -> bulb_set l ->
  (forall bs, state_text s bs -> exists l', set_state co so ho l s = Set_ok l' /\
                                           shows l' (fun b => In b l \/ In b bs)) /\
  ((forall bs, ~ state_text s bs) -> exists l', set_state co so ho l s = Set_error l').
Proof.
  intros co so ho s l O B. split.
  - intros bs T. apply (set_state_ok co so ho O); auto.
  - intros N. destruct (set_state co so ho l s) as [l'|l'|] eqn:E; eauto.
    + exfalso. destruct (set_state_text co so ho O (length s) s l l' (le_n _) E) as [bs T]. apply (N bs T).
    + exfalso. apply (set_state_no_fuel co so ho l s E).
Qed.
Example C32_nonvacuous :
  set_state co0 so0 ho0 [] (text "red, yellow  flashing left,amber none") =
  Set_ok [ {| b_color := Yellow; b_status := SolidOff; b_shape := Circle |};
           {| b_color := Yellow; b_status := Flashing; b_shape := Left |};
           {| b_color := Red; b_status := SolidOn; b_shape := Circle |} ] /\
  bulb_make (rev co0) (rev so0) (rev ho0) (text "unknown upperLeft") =
    Some {| b_color := UnknownColor; b_status := SolidOn; b_shape := UpperLeft |} /\
  bulb_make co0 so0 ho0 (text "circle red") = None.
Proof. vm_compute. auto. Qed.

(** ** C33: distinct bulbs are never identified *)
Theorem C33_bulb_identity : forall a b,
  (bulb_lt a b = false /\ bulb_lt b a = false) <-> a = b.
Proof.
  intros a b. unfold bulb_lt. rewrite !Z.ltb_ge. split.
  - intros [H1 H2]. apply hash_inj. lia.
  - intros ->. lia.
Qed.
(** Hence a light contains exactly the bulbs put into it. *)
Theorem C33_light_membership : forall bs l, bulb_set l ->
  forall b, contains b (fold_left (fun l b => emplace b l) bs l) = true <-> In b l \/ In b bs.
Proof.
  intros bs. induction bs as [|x bs IH]; intros l B b; cbn [fold_left].
  - rewrite contains_iff. cbn. tauto.
  - rewrite (IH (emplace x l) (emplace_set x l B)). rewrite emplace_in. cbn. intuition.
Qed.
Example C33_nonvacuous :
  contains {| b_color := Green; b_status := SolidOn; b_shape := Up |}
    (emplace {| b_color := Green; b_status := SolidOn; b_shape := Circle |} []) = false.
Proof. reflexivity. Qed.

(** ** C34: setting a state replaces the previous one *)

(** Lights that are not in the table yet are like fresh ones: no bulbs. *)
Theorem C34_set_replaces : forall co so ho rm m id ids s bs,
  some_order co so ho -> road_ok rm -> lights_ok m ->
  light_ids rm id = Some ids -> state_text s bs ->
  exists m', set_lights co so ho rm m id s = Done m' tt /\ lights_ok m' /\
    (forall w, In w ids -> exists l, find_light m' w = Some l /\
        shows (l_bulbs l) (fun b => In b bs) /\ l_way l = w /\
        l_confidence l = l_confidence (light_or_fresh rm m w)) /\
    (forall w, ~ In w ids -> find_light m' w = find_light m w).
Proof.
  intros co so ho rm m id ids s bs O RO OK H T.
  destruct (set_lights_ok co so ho O rm RO m id ids s bs OK H T) as (m' & E & B).
  exists m'. split; auto. split.
  - eapply becomes_ok; eauto. cbn. intros l b S. apply S.
  - destruct B as [A B]. split; auto. intros w I. destruct (A w I) as (b & F & S).
    exists (with_bulbs (light_or_fresh rm m w) b). split; auto. split; auto. split; auto.
    apply or_fresh_way; auto.
Qed.
(** An invalid state is refused; the lights not addressed keep theirs. *)
Theorem C34_invalid_refused : forall co so ho rm m id ids s,
  some_order co so ho -> road_ok rm -> lights_ok m ->
  light_ids rm id = Some ids -> ids <> [] -> (forall bs, ~ state_text s bs) ->
  exists m', set_lights co so ho rm m id s = Threw m' /\ lights_ok m' /\
    (forall w, ~ In w ids -> find_light m' w = find_light m w).
Proof. intros co so ho rm m id ids s O RO OK H N B. apply (set_lights_bad co so ho O rm RO m id ids s); auto. Qed.
(** An id that is neither a light nor a relation changes nothing. *)
Theorem C34_unknown_id : forall co so ho rm m id s, light_ids rm id = None ->
  set_lights co so ho rm m id s = Threw m.
Proof.
  intros co so ho rm m id s H. unfold set_lights, clear_lights. rewrite get_lights_bad by auto. reflexivity.
Qed.
(** The hypotheses hold in every reachable state. *)
Theorem C34_reachable : forall co so ho rm l s u, some_order co so ho -> road_ok rm ->
  run co so ho rm start l = Done s u -> lights_ok (conv s) /\ lights_ok (v2i s).
Proof. intros co so ho rm l s u O RO H. exact (run_ok co so ho O rm RO l start s u start_ok H). Qed.

(** The original claim also asked that an invalid state leave the light unchanged; it does not: the
    previous state is lost, and the valid bulbs before the error are shown. *)
Definition C34_invalid_unchanged_claim : Prop :=
  forall co so ho rm m id s m' w, some_order co so ho -> road_ok rm -> lights_ok m ->
  set_lights co so ho rm m id s = Threw m' -> find_light m' w = find_light m w.
Definition red1 : lights :=
  [(1%Z, {| l_way := 1%Z; l_relations := [100%Z]; l_confidence := 1%Z;
            l_bulbs := [{| b_color := Red; b_status := SolidOn; b_shape := Circle |}] |})].
Theorem C34_invalid_unchanged_refuted : ~ C34_invalid_unchanged_claim.
Proof.
  intros C.
  assert (OK : lights_ok red1).
  { intros w l E. unfold red1, find_light in E. destruct (Z.eqb_spec 1 w); [|discriminate E]. injection E as <-. cbn.
    split; [constructor|auto]. }
  specialize (C co0 so0 ho0 road0 red1 1%Z (text "green, purple") _ 1%Z order0 road0_ok OK eq_refl).
  vm_compute in C. discriminate.
Qed.
Example C34_nonvacuous :
  match set_lights co0 so0 ho0 road0 red1 100 (text "green, yellow flashing") with
  | Done m _ => (print_light (l_bulbs (light_or_fresh road0 m 1)), print_light (l_bulbs (light_or_fresh road0 m 2)))
  | Threw _ => ([], [])
  end = (text "green solidOn circle, yellow flashing circle", text "green solidOn circle, yellow flashing circle").
Proof. vm_compute. reflexivity. Qed.

(** ** C35: V2I lights mirror the conventional lights *)

(** Enabling an id (a light or a relation) enables exactly the lights it stands for. *)
Theorem C35_enable : forall rm s id on s' u ids, road_ok rm -> light_ids rm id = Some ids ->
  set_feature rm s id on = Done s' u -> forall w,
  (In w (enabled s') <-> if on then In w (enabled s) \/ In w ids else In w (enabled s) /\ ~ In w ids).
Proof. intros rm s id on s' u ids RO L H. apply (set_feature_enabled rm RO s id on s' u ids L H). Qed.

(** After an operation that sets the state of an enabled light, whatever follows (except V2I
    commands to it, switching the feature off for it, and commands addressed to relations it belongs
    to), both channels show the same bulbs for it. *)
Theorem C35_mirror : forall co so ho rm w s st l s' u,
  some_order co so ho -> road_ok rm -> is_way rm w = true -> relation rm w = None ->
  chan_ok s -> In w (enabled s) -> Forall (allowed rm w) l ->
  run co so ho rm s (ConvSet w st :: l) = Done s' u ->
  bulbs_at rm (v2i s') w = bulbs_at rm (conv s') w.
Proof.
  intros co so ho rm w s st l s' u O RO W NR OK E F H. cbn in H.
  destruct (conv_set co so ho rm s w st) as [s1 []|] eqn:C; [|discriminate].
  apply enabled_in in E.
  destruct (conv_set_ok co so ho O rm RO s w st s1 tt OK C) as (OK1 & E1 & _).
  destruct (mirror_set_w co so ho O rm RO w W NR s st s1 tt OK E C) as (A & _).
  symmetry. eapply (run_agree co so ho O rm RO w W NR l s1 s' u); auto.
  unfold is_enabled in *. rewrite E1. auto.
Qed.
(** ... and right after it, the V2I channel shows exactly the state set. *)
Theorem C35_set_visible : forall co so ho rm w s st s' u,
  some_order co so ho -> road_ok rm -> is_way rm w = true -> relation rm w = None ->
  chan_ok s -> In w (enabled s) -> conv_set co so ho rm s w st = Done s' u ->
  exists bs, state_text st bs /\ shows (bulbs_at rm (v2i s') w) (fun b => In b bs).
Proof.
  intros co so ho rm w s st s' u O RO W NR OK E H. apply enabled_in in E.
  destruct (mirror_set_w co so ho O rm RO w W NR s st s' u OK E H) as (A & bs & T & S).
  exists bs. split; auto. unfold agree in A. rewrite <- A. auto.
Qed.
(** From the start of a scenario the two channels agree on [w] as long as nothing but the mirrored
    operations touches it. *)
Theorem C35_history : forall co so ho rm w id l s' u,
  some_order co so ho -> road_ok rm -> is_way rm w = true -> relation rm w = None ->
  touches rm id w -> Forall (allowed rm w) l ->
  run co so ho rm start (Feature id true :: l) = Done s' u ->
  bulbs_at rm (v2i s') w = bulbs_at rm (conv s') w.
Proof.
  intros co so ho rm w id l s' u O RO W NR (ids & L & I) F H. cbn in H.
  destruct (set_feature rm start id true) as [s1 []|] eqn:S; [|discriminate].
  destruct (set_feature_lights _ _ _ _ _ _ S) as [C V].
  symmetry. eapply (run_agree co so ho O rm RO w W NR l s1 s' u); auto.
  - unfold chan_ok. rewrite C, V. apply start_ok.
  - apply enabled_in. apply (set_feature_enabled rm RO _ _ _ _ _ ids L S w). right; auto.
  - unfold agree. rewrite C, V. reflexivity.
Qed.
(** The claim without the restriction to light ids fails: a state set through a relation id is not
    mirrored although the feature was enabled through that very id. *)
Definition C35_relation_claim : Prop :=
  forall co so ho rm id w st s' u, some_order co so ho -> road_ok rm -> touches rm id w ->
  run co so ho rm start [Feature id true; ConvSet id st] = Done s' u ->
  bulbs_at rm (v2i s') w = bulbs_at rm (conv s') w.
Theorem C35_relation_refuted : ~ C35_relation_claim.
Proof.
  intros C.
  specialize (C co0 so0 ho0 road0 100%Z 1%Z (text "green") _ _ order0 road0_ok
    (ex_intro _ _ (conj eq_refl (or_introl eq_refl))) eq_refl).
  vm_compute in C. discriminate.
Qed.
Example C35_nonvacuous :
  match run co0 so0 ho0 road0 start
    [Feature 100 true; ConvSet 1 (text "red"); ConvAdd 1 (text "green left"); V2ISet 3 (text "red")] with
  | Done s _ => print_light (bulbs_at road0 (v2i s) 1)
  | Threw _ => []
  end = text "green solidOn left, red solidOn circle".
Proof. vm_compute. reflexivity. Qed.

(** ** C36: overrides *)
Fixpoint find_sig (r : list sig) (id : Z) : option sig :=
  match r with
  | [] => None
  | g :: r' => if (g_id g =? id)%Z then Some g else find_sig r' id
  end.
Definition overridden (l : light) (g : sig) : sig :=
  {| g_id := g_id g; g_relations := g_relations g; g_bulbs := g_bulbs (to_signal l) |}.

Lemma override_first_spec : forall r id l,
  match override_first r id l with
  | Some r' => map g_id r' = map g_id r /\
      forall i, find_sig r' i = if (i =? id)%Z then option_map (overridden l) (find_sig r id) else find_sig r i
  | None => find_sig r id = None
  end.
Proof.
  induction r as [|g r IH]; intros id l; cbn; auto.
  destruct (Z.eqb_spec (g_id g) id) as [E|N].
  - cbn. split; auto. intros i. destruct (Z.eqb_spec (g_id g) i), (Z.eqb_spec i id); auto; congruence.
  - specialize (IH id l). destruct (override_first r id l) as [r'|]; cbn; auto.
    destruct IH as [IH1 IH2]. split; [congruence|]. intros i. rewrite IH2.
    destruct (Z.eqb_spec (g_id g) i), (Z.eqb_spec i id); auto; congruence.
Qed.
Lemma find_sig_none : forall r i, find_sig r i = None <-> ~ In i (map g_id r).
Proof.
  induction r as [|g r IH]; intros i; cbn; [tauto|].
  destruct (Z.eqb_spec (g_id g) i); [split; [discriminate|tauto]|]. rewrite IH. tauto.
Qed.
Lemma find_sig_app : forall a b i, find_sig (a ++ b) i = match find_sig a i with Some g => Some g | None => find_sig b i end.
Proof. induction a as [|g a IH]; intros b i; cbn; auto. destruct (g_id g =? i)%Z; auto. Qed.
Lemma apply1_spec : forall r id l, l_way l = id -> NoDup (map g_id r) ->
  NoDup (map g_id (apply1 r (id, l))) /\
  forall i, find_sig (apply1 r (id, l)) i =
    if (i =? id)%Z then Some (match find_sig r id with Some g => overridden l g | None => to_signal l end)
    else find_sig r i.
Proof.
  intros r id l W ND. unfold apply1. cbn [fst snd]. pose proof (override_first_spec r id l) as H.
  destruct (override_first r id l) as [r'|] eqn:E.
  - destruct H as [H1 H2]. rewrite H1. split; auto. intros i. rewrite H2.
    destruct (Z.eqb_spec i id) as [-> | ]; auto.
    destruct (find_sig r id) as [g|] eqn:F; auto. exfalso.
    assert (X : forall r id r' l, override_first r id l = Some r' -> find_sig r id <> None).
    { clear. induction r as [|g r IH]; intros id r' l H; cbn in *; [discriminate|].
      destruct (g_id g =? id)%Z; [discriminate|]. destruct (override_first r id l) eqn:E; [|discriminate]. eauto. }
    apply (X _ _ _ _ E); auto.
  - assert (NI : ~ In id (map g_id r)) by (apply find_sig_none; auto). split.
    + rewrite map_app. apply Permutation_NoDup with (l := id :: map g_id r).
      * cbn. rewrite W. apply Permutation_cons_append.
      * constructor; auto.
    + intros i. rewrite find_sig_app. cbn. rewrite W, H.
      destruct (Z.eqb_spec i id) as [-> | N].
      * rewrite H, Z.eqb_refl. auto.
      * destruct (find_sig r i); auto. destruct (Z.eqb_spec id i); [congruence|auto].
Qed.
(** Overrides given for lights themselves ([l_way l = id]): exactly one state per light, the override
    where there is one (the relation ids stay those of the ground truth), the ground truth
    elsewhere. *)
Theorem C36_override : forall d r,
  NoDup (map g_id r) -> NoDup (map fst d) -> (forall id l, In (id, l) d -> l_way l = id) ->
  NoDup (map g_id (apply d r)) /\
  forall id, find_sig (apply d r) id =
    match find_light d id, find_sig r id with
    | Some l, Some g => Some {| g_id := g_id g; g_relations := g_relations g;
                                g_bulbs := map (fun b => (b, l_confidence l)) (l_bulbs l) |}
    | Some l, None => Some {| g_id := id; g_relations := l_relations l;
                              g_bulbs := map (fun b => (b, l_confidence l)) (l_bulbs l) |}
    | None, x => x
    end.
Proof.
  unfold apply. induction d as [|[k l] d IH]; intros r ND NK WY.
  - cbn. split; auto.
  - cbn [fold_left]. inversion NK; subst.
    assert (W : l_way l = k) by (apply WY; left; auto).
    destruct (apply1_spec r k l W ND) as [ND1 F1].
    destruct (IH (apply1 r (k, l)) ND1 H2) as [ND2 F2]; [intros; apply WY; right; auto|].
    split; auto. intros id. rewrite F2, F1. cbn [find_light].
    assert (NK' : find_light d k = None).
    { destruct (find_light d k) as [x|] eqn:E; auto. exfalso. apply H1. clear - E.
      induction d as [|[i y] d IH]; cbn in *; [discriminate|].
      destruct (Z.eqb_spec i k); auto. }
    destruct (Z.eqb_spec id k) as [-> | N].
    + rewrite NK', Z.eqb_refl. destruct (find_sig r k); auto. unfold to_signal. rewrite W. auto.
    + destruct (Z.eqb_spec k id); [congruence|]. auto.
Qed.

(** The hypotheses are met by every request of a reachable ground truth and by every override map
    built by set/add/clear calls with light ids. *)
Inductive dop := DSet (id : Z) (s : str) | DAdd (id : Z) (s : str) | DClear (id : Z).
Definition dexec co so ho rm (m : lights) (o : dop) : outcome lights unit :=
  match o with
  | DSet id s => detected_set co so ho rm m id s
  | DAdd id s => detected_add co so ho rm m id s
  | DClear id => Done (detected_clear m id) tt
  end.
Definition dop_id (o : dop) : Z := match o with DSet id _ | DAdd id _ | DClear id => id end.
Definition detected_ok (m : lights) : Prop :=
  NoDup (map fst m) /\ forall id l, In (id, l) m -> l_way l = id.
Lemma update_keys : forall m id f, map fst (update_light m id f) = map fst m.
Proof. induction m as [|[i l] m IH]; intros id f; cbn; auto. destruct (i =? id)%Z; cbn; f_equal; auto. Qed.
Lemma update_in : forall m id f i l, In (i, l) (update_light m id f) -> exists l0, In (i, l0) m /\ (l = l0 \/ l = f l0).
Proof.
  induction m as [|[k x] m IH]; intros id f i l I; cbn in I; [destruct I|].
  destruct (k =? id)%Z; destruct I as [I|I].
  - injection I as <- <-. exists x. cbn; auto.
  - exists l. cbn; auto.
  - injection I as <- <-. exists x. cbn; auto.
  - destruct (IH _ _ _ _ I) as (l0 & J & E). exists l0; cbn; auto.
Qed.
Lemma insert_in : forall m id l i x, In (i, x) (insert_key m id l) <-> (i, x) = (id, l) \/ In (i, x) m.
Proof.
  induction m as [|[k y] m IH]; intros id l i x; cbn; [intuition|].
  destruct (id <? k)%Z; cbn; [intuition|]. rewrite IH. intuition.
Qed.
Lemma insert_perm : forall m id l, Permutation (insert_key m id l) ((id, l) :: m).
Proof.
  induction m as [|[k y] m IH]; intros id l; cbn; auto. destruct (id <? k)%Z; auto.
  rewrite IH. apply perm_swap.
Qed.
Lemma find_light_key : forall m id, find_light m id = None -> ~ In id (map fst m).
Proof.
  induction m as [|[k y] m IH]; intros id H; cbn in *; auto.
  destruct (Z.eqb_spec k id); [discriminate|]. intros [E|I]; [congruence|]. apply (IH _ H I).
Qed.
Lemma update_detected : forall m id f, (forall l, l_way (f l) = l_way l) -> detected_ok m -> detected_ok (update_light m id f).
Proof.
  intros m id f F [N W]. split; [rewrite update_keys; auto|]. intros i l I.
  destruct (update_in _ _ _ _ _ I) as (l0 & J & [-> | ->]); [|rewrite F]; auto.
Qed.
Lemma detected_step : forall co so ho rm m o m' u, is_way rm (dop_id o) = true -> detected_ok m ->
  dexec co so ho rm m o = Done m' u -> detected_ok m'.
Proof.
  intros co so ho rm.
  assert (ADD : forall m id s m' u, is_way rm id = true -> detected_ok m ->
    detected_add co so ho rm m id s = Done m' u -> detected_ok m').
  { intros m id s m' u W [N K] H. unfold detected_add in H.
    assert (UPD : forall m b, detected_ok m -> detected_ok (update_light m id (fun l => with_bulbs l b))).
    { intros m0 b D. apply update_detected; auto. }
    destruct (find_light m id) as [l|] eqn:E.
    - destruct (set_state co so ho (l_bulbs l) s); try discriminate. injection H as <- _. apply UPD. split; auto.
    - rewrite (new_light_way rm id W) in H.
      destruct (set_state co so ho (l_bulbs (fresh rm id)) s); try discriminate. injection H as <- _.
      apply UPD. split.
      + eapply Permutation_NoDup; [apply Permutation_sym, Permutation_map, insert_perm|].
        cbn. constructor; auto. apply find_light_key; auto.
      + intros i x I. apply insert_in in I as [I|I]; auto. injection I as -> ->. reflexivity. }
  assert (CLR : forall m id, detected_ok m -> detected_ok (detected_clear m id)).
  { intros m id [N K]. split.
    - unfold detected_clear. clear K. induction m as [|[i x] m IH]; cbn; [constructor|]. inversion N; subst.
      destruct (negb (i =? id)%Z); auto. cbn. constructor; auto.
      intros I. apply H1. apply in_map_iff in I as ([a b] & <- & I). apply filter_In in I as [I _].
      apply in_map_iff. exists (a, b); auto.
    - intros i l I. apply filter_In in I as [I _]. auto. }
  intros m [id s|id s|id] m' u W D H; cbn in H, W.
  - eapply ADD; [eauto| |exact H]. apply CLR; auto.
  - eapply ADD; eauto.
  - injection H as <- _. apply CLR; auto.
Qed.
Fixpoint drun co so ho rm (m : lights) (l : list dop) : outcome lights unit :=
  match l with
  | [] => Done m tt
  | o :: l' => match dexec co so ho rm m o with Done m' _ => drun co so ho rm m' l' | Threw m' => Threw m' end
  end.
Theorem C36_overrides_reachable : forall co so ho rm l d u,
  Forall (fun o => is_way rm (dop_id o) = true) l ->
  drun co so ho rm [] l = Done d u ->
  NoDup (map fst d) /\ forall id x, In (id, x) d -> l_way x = id.
Proof.
  intros co so ho rm l d u F H. change (detected_ok d).
  assert (G : forall l m d u, detected_ok m -> Forall (fun o => is_way rm (dop_id o) = true) l ->
    drun co so ho rm m l = Done d u -> detected_ok d).
  { clear. induction l as [|o l IH]; intros m d u D F H; cbn in H; [injection H as <- _; auto|].
    inversion F; subst. destruct (dexec co so ho rm m o) as [m1 []|] eqn:E; [|discriminate].
    exact (IH m1 d u (detected_step _ _ _ _ _ _ _ _ H2 D E) H3 H). }
  eapply G; eauto. split; [constructor|intros ? ? []].
Qed.

(** Ground truths: the keys of the table stay distinct. *)
Lemma update_nodup : forall m id f, NoDup (map fst m) -> NoDup (map fst (update_light m id f)).
Proof. intros. rewrite update_keys. auto. Qed.
Lemma get_each_nodup : forall rm ids m, NoDup (map fst m) ->
  match get_each rm m ids with Done m' _ | Threw m' => NoDup (map fst m') end.
Proof.
  intros rm. induction ids as [|id ids IH]; intros m N; cbn; auto. unfold get_light.
  destruct (find_light m id) eqn:E; [apply IH; auto|].
  destruct (new_light rm id) as [l|]; auto. apply IH. cbn. constructor; auto. apply find_light_key; auto.
Qed.
Lemma get_lights_nodup : forall rm id m, NoDup (map fst m) ->
  match get_lights rm m id with Done m' _ | Threw m' => NoDup (map fst m') end.
Proof.
  intros rm id m N. unfold get_lights. destruct (light_ids rm id) as [ids|]; auto.
  pose proof (get_each_nodup rm ids m N). destruct (get_each rm m ids); auto.
Qed.
Lemma clear_nodup : forall rm id m, NoDup (map fst m) ->
  match clear_lights rm m id with Done m' _ | Threw m' => NoDup (map fst m') end.
Proof.
  intros rm id m N. unfold clear_lights. pose proof (get_lights_nodup rm id m N) as G.
  destruct (get_lights rm m id) as [m' ids|m']; auto. unfold clear_each. clear N. revert m' G.
  induction ids as [|i ids IH]; intros m' G; cbn; auto. apply IH. apply update_nodup; auto.
Qed.
Lemma set_each_nodup : forall co so ho s ids m, NoDup (map fst m) ->
  match set_each co so ho m ids s with Done m' _ | Threw m' => NoDup (map fst m') end.
Proof.
  intros co so ho s. induction ids as [|id ids IH]; intros m N; cbn; auto.
  destruct (find_light m id); auto. destruct (set_state co so ho _ s); auto; try (apply IH); try (apply update_nodup; auto).
Qed.
Lemma add_nodup : forall co so ho rm id s m, NoDup (map fst m) ->
  match add_lights co so ho rm m id s with Done m' _ | Threw m' => NoDup (map fst m') end.
Proof.
  intros co so ho rm id s m N. unfold add_lights. pose proof (get_lights_nodup rm id m N) as G.
  destruct (get_lights rm m id) as [m' ids|m']; auto. apply set_each_nodup; auto.
Qed.
Lemma set_nodup : forall co so ho rm id s m, NoDup (map fst m) ->
  match set_lights co so ho rm m id s with Done m' _ | Threw m' => NoDup (map fst m') end.
Proof.
  intros co so ho rm id s m N. unfold set_lights. pose proof (clear_nodup rm id m N) as G.
  destruct (clear_lights rm m id) as [m' u|m']; auto. apply add_nodup; auto.
Qed.
Theorem C36_requests_reachable : forall co so ho rm l s u,
  some_order co so ho -> road_ok rm -> run co so ho rm start l = Done s u ->
  NoDup (map g_id (request_of (conv s))) /\ NoDup (map g_id (request_of (v2i s))).
Proof.
  intros co so ho rm l s u O RO H.
  assert (N : forall l s s' u, NoDup (map fst (conv s)) /\ NoDup (map fst (v2i s)) ->
     run co so ho rm s l = Done s' u -> NoDup (map fst (conv s')) /\ NoDup (map fst (v2i s'))).
  { clear. induction l as [|o l IH]; intros s s' u [N1 N2] H; cbn in H; [injection H as <- _; auto|].
    destruct (exec co so ho rm s o) as [s1 []|] eqn:E; [|discriminate]. apply (IH s1 s' u); auto. clear IH H.
    assert (MIR : forall s id st k s' u, NoDup (map fst (conv s)) /\ NoDup (map fst (v2i s)) ->
      mirror co so ho rm s id st k = Done s' u -> NoDup (map fst (conv s')) /\ NoDup (map fst (v2i s'))).
    { intros s0 id st k s0' u0 [M1 M2] H. unfold mirror in H. destruct (is_enabled s0 id).
      - destruct k.
        + pose proof (set_nodup co so ho rm id st (v2i s0) M2) as X. destruct (set_lights _ _ _ _ _ _ _); [|discriminate].
          injection H as <- _; cbn; auto.
        + pose proof (clear_nodup rm id (v2i s0) M2) as X. destruct (clear_lights _ _ _); [|discriminate].
          injection H as <- _; cbn; auto.
        + pose proof (add_nodup co so ho rm id st (v2i s0) M2) as X. destruct (add_lights _ _ _ _ _ _ _); [|discriminate].
          injection H as <- _; cbn; auto.
      - injection H as <- _; auto. }
    assert (CC : forall s id s' u, NoDup (map fst (conv s)) /\ NoDup (map fst (v2i s)) ->
      conv_clear co so ho rm s id = Done s' u -> NoDup (map fst (conv s')) /\ NoDup (map fst (v2i s'))).
    { intros s0 id s0' u0 [M1 M2] H. unfold conv_clear in H. pose proof (clear_nodup rm id (conv s0) M1) as X.
      destruct (clear_lights rm (conv s0) id); [|discriminate]. refine (MIR _ _ _ _ _ _ _ H); cbn; auto. }
    assert (CA : forall s id st s' u, NoDup (map fst (conv s)) /\ NoDup (map fst (v2i s)) ->
      conv_add co so ho rm s id st = Done s' u -> NoDup (map fst (conv s')) /\ NoDup (map fst (v2i s'))).
    { intros s0 id st s0' u0 [M1 M2] H. unfold conv_add in H. pose proof (add_nodup co so ho rm id st (conv s0) M1) as X.
      destruct (add_lights co so ho rm (conv s0) id st); [|discriminate]. refine (MIR _ _ _ _ _ _ _ H); cbn; auto. }
    destruct o as [id st|id st|id|id st|id st|id|id on]; cbn in E.
    - unfold conv_set in E. destruct (conv_clear co so ho rm s id) as [a []|] eqn:E1; [|discriminate].
      destruct (conv_add co so ho rm a id st) as [b []|] eqn:E2; [|discriminate]. eauto.
    - eauto.
    - eauto.
    - pose proof (set_nodup co so ho rm id st (v2i s) N2) as X. unfold on_v2i in E.
      destruct (set_lights _ _ _ _ _ _ _); [|discriminate]. injection E as <-; cbn; auto.
    - pose proof (add_nodup co so ho rm id st (v2i s) N2) as X. unfold on_v2i in E.
      destruct (add_lights _ _ _ _ _ _ _); [|discriminate]. injection E as <-; cbn; auto.
    - pose proof (clear_nodup rm id (v2i s) N2) as X. unfold on_v2i in E.
      destruct (clear_lights _ _ _); [|discriminate]. injection E as <-; cbn; auto.
    - destruct (set_feature_lights _ _ _ _ _ _ E) as [-> ->]. auto. }
  assert (K : forall m, NoDup (map fst m) -> lights_ok m -> map g_id (request_of m) = map fst m).
  { clear. intros m. unfold request_of. induction m as [|[i l] m IH]; intros N OK; auto. cbn in *.
    inversion N; subst. destruct (OK i l) as [_ W]; [cbn; rewrite Z.eqb_refl; auto|]. rewrite W. f_equal.
    apply IH; auto. intros w x E. apply OK. cbn. destruct (Z.eqb_spec i w) as [-> | ]; auto.
    exfalso. apply H1. clear - E. induction m as [|[j y] m IH]; cbn in *; [discriminate|].
    destruct (Z.eqb_spec j w); auto. }
  destruct (N l start s u) as [N1 N2]; auto. { split; constructor. }
  destruct (run_ok co so ho O rm RO l start s u start_ok H) as [K1 K2].
  rewrite !K; auto.
Qed.
(** With an override given through a relation id, a light gets two states. *)
Definition C36_any_id_claim : Prop :=
  forall co so ho rm d r l s u v, some_order co so ho -> road_ok rm ->
  run co so ho rm start l = Done s u -> r = request_of (conv s) ->
  (exists id st, detected_set co so ho rm [] id st = Done d v) ->
  NoDup (map g_id (apply d r)).
Theorem C36_any_id_refuted : ~ C36_any_id_claim.
Proof.
  intros C.
  specialize (C co0 so0 ho0 road0 _ _ [ConvSet 1 (text "red")] _ _ _ order0 road0_ok eq_refl eq_refl
    (ex_intro _ 100%Z (ex_intro _ (text "green") eq_refl))).
  vm_compute in C. inversion C as [|? ? N]. apply N. left; auto.
Qed.
Example C36_nonvacuous :
  match run co0 so0 ho0 road0 start [ConvSet 100 (text "red")], detected_set co0 so0 ho0 road0 [] 2 (text "green") with
  | Done s _, Done d _ => map (fun g => (g_id g, map (fun p => print_bulb (fst p)) (g_bulbs g))) (apply d (request_of (conv s)))
  | _, _ => []
  end = [(2%Z, [text "green solidOn circle"]); (1%Z, [text "red solidOn circle"])].
Proof. vm_compute. reflexivity. Qed.

(** ** C61: predictions *)

Definition spaced (l : list (Z * list bulb)) : Prop :=
  ForallOrdPairs (fun a b => (Z.abs (fst a - fst b) > tolerance_ns)%Z) l.
Definition requests (q : list (Z * bulb)) : list (Z * list bulb) :=
  fold_left (fun l '(t, b) => add_prediction l t b) q [].
Lemma add_prediction_spec : forall l t b,
  exists l1 t' bs l2,
    (l = l1 ++ (t', bs) :: l2 /\ add_prediction l t b = l1 ++ (t', bs ++ [b]) :: l2 \/
     l = l1 /\ l2 = [] /\ bs = [] /\ t' = t /\ add_prediction l t b = l1 ++ [(t, [b])]) /\
    (Z.abs (t' - t) <= tolerance_ns)%Z /\
    (forall x, In x l1 -> (Z.abs (fst x - t) > tolerance_ns)%Z).
Proof.
  induction l as [|[t0 bs0] l IH]; intros t b; cbn.
  - exists [], t, [], []. split; [right; auto|]. split; [unfold tolerance_ns; lia|intros x []].
  - unfold near. destruct (Z.leb_spec (Z.abs (t0 - t)) tolerance_ns) as [L|L].
    + exists [], t0, bs0, l. split; [left; auto|]. split; auto. intros x [].
    + destruct (IH t b) as (l1 & t' & bs & l2 & H & N & F).
      exists ((t0, bs0) :: l1), t', bs, l2. split; [|split; auto].
      * destruct H as [[H1 H2]|(H1 & H2 & H3 & H4 & H5)]; [left|right]; cbn; rewrite ?H2, ?H5; subst; auto.
      * intros x [<- | I]; cbn; [lia|auto].
Qed.
(** Every prediction requested is in exactly the group of its time: the groups are more than 10 ms
    apart, and each requested bulb is in a group within 10 ms of the requested time. *)
Lemma spaced_same_times : forall l m, map fst l = map fst m -> spaced l -> spaced m.
Proof.
  unfold spaced. induction l as [|a l IH]; intros [|b m] E S; try discriminate; [constructor|].
  injection E as E1 E2. inversion S; subst. constructor; auto.
  apply Forall_forall. intros x I. apply (in_map fst) in I. rewrite <- E2 in I.
  apply in_map_iff in I as (y & Ey & I). rewrite Forall_forall in H1. specialize (H1 _ I).
  rewrite <- E1, <- Ey. auto.
Qed.
Lemma spaced_snoc : forall l a, spaced l -> (forall x, In x l -> (Z.abs (fst x - fst a) > tolerance_ns)%Z) -> spaced (l ++ [a]).
Proof.
  unfold spaced. induction l as [|b l IH]; intros a S F; cbn; [repeat constructor|].
  inversion S; subst. constructor.
  - apply Forall_app. split; auto. constructor; auto. apply F; left; auto.
  - apply IH; auto. intros x I; apply F; right; auto.
Qed.
Theorem C61_predictions : forall q,
  spaced (requests q) /\
  (forall t b, In (t, b) q -> exists t' bs, In (t', bs) (requests q) /\ In b bs /\
                                            (Z.abs (t' - t) <= tolerance_ns)%Z) /\
  (forall t' bs b, In (t', bs) (requests q) -> In b bs -> exists t, In (t, b) q /\ (Z.abs (t' - t) <= tolerance_ns)%Z) /\
  List.length (concat (map snd (requests q))) = List.length q.
Proof.
  intros q. induction q as [|[t b] q IH] using rev_ind.
  - cbn. split; [constructor|]. split; [intros ? ? []|]. split; [intros ? ? ? []|auto].
  - assert (E : requests (q ++ [(t, b)]) = add_prediction (requests q) t b)
      by (unfold requests; rewrite fold_left_app; reflexivity).
    rewrite E. clear E. destruct IH as (S & A & B & L).
    destruct (add_prediction_spec (requests q) t b) as (l1 & t' & bs & l2 & H & N & F).
    destruct H as [[H1 H2]|(H1 & H2 & H3 & H4 & H5)].
    + rewrite H2. rewrite H1 in S, A, B, L.
      split; [eapply spaced_same_times; [|exact S]; rewrite !map_app; auto|]. split; [|split].
      * intros x y I. apply in_app_or in I as [I | [I | []]].
        -- destruct (A x y I) as (t1 & bs1 & J & K & M).
           apply in_app_or in J as [J | [J | J]].
           ++ exists t1, bs1. split; [apply in_or_app; auto|auto].
           ++ injection J as -> ->. exists t1, (bs1 ++ [b]). split; [apply in_or_app; cbn; auto|].
              split; auto. apply in_or_app; auto.
           ++ exists t1, bs1. split; [apply in_or_app; cbn; auto|auto].
        -- injection I as <- <-. exists t', (bs ++ [b]). split; [apply in_or_app; cbn; auto|].
           split; auto. apply in_or_app; cbn; auto.
      * intros x ys y I J.
        assert (K : (exists ys0, In (x, ys0) (l1 ++ (t', bs) :: l2) /\ In y ys0) \/ (x = t' /\ y = b)).
        { apply in_app_or in I as [I | [I | I]].
          - left; exists ys; split; auto. apply in_or_app; auto.
          - injection I as <- <-. apply in_app_or in J as [J | [<- | []]]; auto.
            left; exists bs; split; auto. apply in_or_app; cbn; auto.
          - left; exists ys; split; auto. apply in_or_app; cbn; auto. }
        destruct K as [(ys0 & K1 & K2) | [-> ->]].
        -- destruct (B _ _ _ K1 K2) as (t1 & M & M'). exists t1. split; auto. apply in_or_app; auto.
        -- exists t. split; auto. apply in_or_app; cbn; auto.
      * rewrite app_length. cbn. rewrite <- L. rewrite !map_app, !concat_app. cbn. rewrite !app_length. cbn. lia.
    + rewrite H5. subst l1.
      split; [apply spaced_snoc; auto|]. split; [|split].
      * intros x y I. apply in_app_or in I as [I | [I | []]].
        -- destruct (A x y I) as (t1 & bs1 & J & K). exists t1, bs1. split; auto. apply in_or_app; auto.
        -- injection I as <- <-. exists t, [b]. split; [apply in_or_app; cbn; auto|]. split; [cbn; auto|unfold tolerance_ns; lia].
      * intros x ys y I J. apply in_app_or in I as [I | [I | []]].
        -- destruct (B _ _ _ I J) as (t1 & M & M'). exists t1. split; auto. apply in_or_app; auto.
        -- injection I as <- <-. destruct J as [<- | []]. exists t. split; [apply in_or_app; cbn; auto|unfold tolerance_ns; lia].
      * rewrite app_length, map_app, concat_app, app_length, L. cbn. auto.
Qed.
Example C61_nonvacuous :
  let b c := {| b_color := c; b_status := SolidOn; b_shape := Circle |} in
  requests [(1000000000, b Green); (3000000000, b Red); (1009000000, b Yellow)]%Z =
  [(1000000000, [b Green; b Yellow]); (3000000000, [b Red])]%Z.
Proof. reflexivity. Qed.

(** ** C62: a state that was just set is found by the comparison *)

(** After any valid state was set, comparing with the text of one bulb (other than "none" and the
    empty text) tells whether that bulb is one of those set. *)
Theorem C62_compare_after_set : forall co so ho rm m id ids s bs s' b m',
  some_order co so ho -> road_ok rm -> lights_ok m -> light_ids rm id = Some ids -> ids <> [] ->
  state_text s bs -> reads s' b -> s' <> [] -> s' <> text "none" ->
  set_lights co so ho rm m id s = Done m' tt ->
  exists m'' r, compare co so ho rm m' id s' = Done m'' r /\ (r = true <-> In b bs).
Proof.
  intros co so ho rm m id ids s bs s' b m' O RO OK L NI T R NE NN H.
  destruct (C34_set_replaces co so ho rm m id ids s bs O RO OK L T) as (m1 & H' & OK' & A & _).
  rewrite H in H'. injection H' as <-. unfold compare.
  destruct (get_lights_ok rm RO m' id ids L) as (m2 & G & B & _). rewrite G.
  replace (match s' with [] => true | _ => str_eqb s' (text "none") end) with false.
  2: { destruct s'; [congruence|]. symmetry. destruct (str_eqb _ _) eqn:E; auto. apply str_eqb_eq in E. congruence. }
  assert (Y : forall w, In w ids -> exists l, find_light m2 w = Some l /\ (In b (l_bulbs l) <-> In b bs)).
  { intros w I. rewrite B by auto. eexists; split; eauto.
    destruct (A w I) as (l & E & [_ S] & _). unfold light_or_fresh. rewrite E. apply S. }
  assert (X : exists r, all_contain co so ho m2 ids s' = Some r /\ (r = true <-> In b bs \/ ids = [])).
  { clear - Y R O. induction ids as [|w ids IH]; [exists true; cbn; tauto|]. cbn.
    rewrite (make_reads co so ho O s' b R). destruct (Y w (or_introl eq_refl)) as (l & E & I).
    rewrite E. destruct (contains b (l_bulbs l)) eqn:C.
    - apply contains_iff in C. destruct IH as (r & E1 & E2); [intros; apply Y; right; auto|].
      exists r. split; auto. rewrite E2. assert (In b bs) by tauto. tauto.
    - exists false. split; auto. split; [discriminate|]. intros [J|J]; [|discriminate].
      apply I, contains_iff in J. congruence. }
  destruct X as (r & X1 & X2). rewrite X1. exists m2, r. split; auto. rewrite X2. tauto.
Qed.
(** Setting the empty state and comparing with it. *)
Theorem C62_compare_after_clear : forall co so ho rm m id ids m' s,
  some_order co so ho -> road_ok rm -> lights_ok m -> light_ids rm id = Some ids ->
  clear_lights rm m id = Done m' tt -> s = [] \/ s = text "none" ->
  exists m'', compare co so ho rm m' id s = Done m'' true.
Proof.
  intros co so ho rm m id ids m' s O RO OK L H E.
  destruct (clear_lights_ok rm RO m id ids L) as (m1 & H' & A & _). rewrite H in H'. injection H' as <-.
  unfold compare. destruct (get_lights_ok rm RO m' id ids L) as (m2 & G & B & _). rewrite G.
  assert (X : forallb (fun i => match find_light m2 i with
                                | Some l => match l_bulbs l with [] => true | _ => false end
                                | None => false
                                end) ids = true).
  { apply forallb_forall. intros w I. rewrite B by auto.
    destruct (A w I) as (b & F & ->). unfold light_or_fresh at 1. rewrite F. reflexivity. }
  destruct E as [-> | ->]; [|change (str_eqb (text "none") (text "none")) with true; cbn [text String.list_ascii_of_string]]; rewrite X; eauto.
Qed.
(** "none" is the exception: as a state it is a bulb that is off, as a comparison it means no bulb. *)
Definition C62_none_claim : Prop :=
  forall co so ho rm m id s m' m'' b, some_order co so ho -> road_ok rm -> lights_ok m ->
  set_lights co so ho rm m id s = Done m' tt ->
  compare co so ho rm m' id s = Done m'' b -> b = true.
Theorem C62_none_refuted : ~ C62_none_claim.
Proof.
  intros C.
  specialize (C co0 so0 ho0 road0 [] 1%Z (text "none") _ _ _ order0 road0_ok
    (fun w l (E : find_light [] w = Some l) => ltac:(discriminate E)) eq_refl eq_refl).
  discriminate.
Qed.
Example C62_nonvacuous :
  match set_lights co0 so0 ho0 road0 [] 100 (text "amber") with
  | Done m _ => match compare co0 so0 ho0 road0 m 100 (text "yellow solidOn") with Done _ b => b | _ => false end
  | _ => false
  end = true.
Proof. vm_compute. reflexivity. Qed.

(** ** C63: the stop line to respect is the nearest one of the lights that demand a stop *)
Definition demands_stop (l : list bulb) : Prop :=
  exists c, (c = Red \/ c = Yellow) /\ In {| b_color := c; b_status := SolidOn; b_shape := Circle |} l.
Lemma required_stop_iff : forall l, required_stop l = true <-> demands_stop l.
Proof.
  intros l. unfold required_stop, demands_stop. rewrite orb_true_iff, !contains_iff. split.
  - intros [H|H]; [exists Red|exists Yellow]; auto.
  - intros (c & [-> | ->] & H); auto.
Qed.
Theorem C63_stop_distance : forall ls,
  match stop_distance ls with
  | None => forall l d, In (l, Some d) ls -> ~ demands_stop l
  | Some d => (exists l, In (l, Some d) ls /\ demands_stop l) /\
              forall l d', In (l, Some d') ls -> demands_stop l -> (d <= d')%Z
  end.
Proof.
  unfold stop_distance. intros ls. induction ls as [|[l o] ls IH] using rev_ind.
  - cbn. intros l d [].
  - rewrite fold_left_app. cbn [fold_left]. set (best := fold_left nearer ls None) in *. clearbody best.
    unfold nearer. cbn [fst snd]. destruct (required_stop l) eqn:R.
    + apply required_stop_iff in R. destruct o as [d|].
      * destruct best as [m|].
        -- destruct IH as [(l0 & I0 & R0) M]. destruct (Z.ltb_spec d m).
           ++ split; [exists l; split; auto; apply in_or_app; cbn; auto|].
              intros l1 d' I D. apply in_app_or in I as [I | [I | []]]; [specialize (M _ _ I D); lia|].
              injection I as <- <-. lia.
           ++ split; [exists l0; split; auto; apply in_or_app; auto|].
              intros l1 d' I D. apply in_app_or in I as [I | [I | []]]; [apply (M _ _ I D)|].
              injection I as <- <-. lia.
        -- split; [exists l; split; auto; apply in_or_app; cbn; auto|].
           intros l1 d' I D. apply in_app_or in I as [I | [I | []]]; [exfalso; apply (IH _ _ I D)|].
           injection I as <- <-. lia.
      * destruct best as [m|].
        -- destruct IH as [(l0 & I0 & R0) M]. split; [exists l0; split; auto; apply in_or_app; auto|].
           intros l1 d' I D. apply in_app_or in I as [I | [I | []]]; [apply (M _ _ I D)|discriminate].
        -- intros l1 d' I. apply in_app_or in I as [I | [I | []]]; [apply (IH _ _ I)|discriminate].
    + assert (ND : ~ demands_stop l) by (intros D; apply required_stop_iff in D; congruence).
      destruct best as [m|].
      * destruct IH as [(l0 & I0 & R0) M]. split; [exists l0; split; auto; apply in_or_app; auto|].
        intros l1 d' I D. apply in_app_or in I as [I | [I | []]]; [apply (M _ _ I D)|].
        injection I as <- _. contradiction.
      * intros l1 d' I. apply in_app_or in I as [I | [I | []]]; [apply (IH _ _ I)|].
        injection I as <- _. auto.
Qed.
Example C63_nonvacuous :
  let red := [{| b_color := Red; b_status := SolidOn; b_shape := Circle |}] in
  stop_distance [(red, Some 30); ([], Some 5); (red, Some 12); (red, None)]%Z = Some 12%Z.
Proof. reflexivity. Qed.

Print Assumptions C32_bulb_round_trip.
Print Assumptions C32_light_round_trip.
Print Assumptions C32_parser_exact.
Print Assumptions C32_states_exact.
Print Assumptions C33_bulb_identity.
Print Assumptions C33_light_membership.
Print Assumptions C34_set_replaces.
Print Assumptions C34_invalid_refused.
Print Assumptions C34_unknown_id.
Print Assumptions C34_reachable.
Print Assumptions C34_invalid_unchanged_refuted.
Print Assumptions C35_enable.
Print Assumptions C35_mirror.
Print Assumptions C35_set_visible.
Print Assumptions C35_history.
Print Assumptions C35_relation_refuted.
Print Assumptions C36_override.
Print Assumptions C36_overrides_reachable.
Print Assumptions C36_requests_reachable.
Print Assumptions C36_any_id_refuted.
Print Assumptions C61_predictions.
Print Assumptions C62_compare_after_set.
Print Assumptions C62_compare_after_clear.
Print Assumptions C62_none_refuted.
Print Assumptions C63_stop_distance.
