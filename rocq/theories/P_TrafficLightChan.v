From Coq Require Import Ascii String List Bool Arith ZArith Permutation Lia.
From Verif Require Import M_TrafficLight S_TrafficLight P_TrafficLight P_TrafficLightSet.
Import ListNotations.
Local Open Scope list_scope.

Section C.
Variables co so ho : list str.
Hypothesis O : some_order co so ho.
Variable rm : road.
Hypothesis RO : road_ok rm.

Definition touches (id w : Z) : Prop := exists ids, light_ids rm id = Some ids /\ In w ids.
Definition bulbs_at (m : lights) (w : Z) : list bulb := l_bulbs (light_or_fresh rm m w).

Lemma clear_done : forall m id m' u, lights_ok m -> clear_lights rm m id = Done m' u ->
  lights_ok m' /\ exists ids, light_ids rm id = Some ids /\ becomes rm m m' ids (fun _ b => b = []).
Proof.
  intros m id m' u OK H. destruct (light_ids rm id) as [ids|] eqn:E.
  - destruct (clear_lights_ok rm RO m id ids E) as (m1 & C & B). rewrite C in H. injection H as -> _.
    split; eauto. eapply becomes_ok; eauto. cbn; intros; subst; constructor.
  - unfold clear_lights in H. rewrite get_lights_bad in H by auto. discriminate.
Qed.
Lemma add_done : forall m id s m' u, lights_ok m -> add_lights co so ho rm m id s = Done m' u ->
  lights_ok m' /\ exists ids, light_ids rm id = Some ids /\
    (forall w, ~ In w ids -> find_light m' w = find_light m w) /\
    (ids <> [] -> exists bs, state_text s bs).
Proof.
  intros m id s m' u OK H. destruct (light_ids rm id) as [ids|] eqn:E.
  - unfold add_lights in H. destruct (get_lights_ok rm RO m id ids E) as (m1 & G & A & B). rewrite G in H.
    destruct (get_lights_keep rm RO m id ids m1 OK E G) as (OK1 & D1 & K1).
    destruct (set_each_any co so ho O s ids m1 OK1 D1) as [X Y]. rewrite H in X.
    destruct X as [X1 X2]. split; auto. exists ids. split; auto. split.
    + intros w N. rewrite X2, K1; auto.
    + intros N. eapply Y; eauto.
  - unfold add_lights in H. rewrite get_lights_bad in H by auto. discriminate.
Qed.
Lemma set_done : forall m id s m' u, lights_ok m -> set_lights co so ho rm m id s = Done m' u ->
  lights_ok m' /\ exists ids, light_ids rm id = Some ids /\
    (forall w, ~ In w ids -> find_light m' w = find_light m w) /\
    (ids <> [] -> exists bs, state_text s bs).
Proof.
  intros m id s m' u OK H. unfold set_lights in H.
  destruct (clear_lights rm m id) as [m1 []|] eqn:C; [|discriminate].
  destruct (clear_done _ _ _ _ OK C) as (OK1 & ids & E & _ & K).
  destruct (add_done _ _ _ _ _ OK1 H) as (OK2 & ids' & E' & K' & T).
  rewrite E in E'. injection E' as <-. split; auto. exists ids. split; auto. split; auto.
  intros w N. rewrite K', K; auto.
Qed.

Definition chan_ok (s : channels) : Prop := lights_ok (conv s) /\ lights_ok (v2i s).
Definition agree (s : channels) (w : Z) : Prop := bulbs_at (conv s) w = bulbs_at (v2i s) w.

Lemma same_find : forall m m' w, find_light m' w = find_light m w -> bulbs_at m' w = bulbs_at m w.
Proof. intros m m' w H. unfold bulbs_at, light_or_fresh. rewrite H. auto. Qed.
Lemma found : forall m w l, find_light m w = Some l -> bulbs_at m w = l_bulbs l.
Proof. intros m w l H. unfold bulbs_at, light_or_fresh. rewrite H. auto. Qed.

(** What the listener does. *)
Definition v2i_op (m : lights) (id : Z) (st : str) (k : change) : outcome lights unit :=
  match k with
  | SET => set_lights co so ho rm m id st
  | CLEAR => clear_lights rm m id
  | ADD => add_lights co so ho rm m id st
  end.
Lemma mirror_done : forall s id st k s' u, mirror co so ho rm s id st k = Done s' u ->
  (is_enabled s id = true /\ exists m, v2i_op (v2i s) id st k = Done m tt /\ s' = with_v2i s m) \/
  (is_enabled s id = false /\ s' = s).
Proof.
  intros s id st k s' u H. unfold mirror in H. destruct (is_enabled s id) eqn:E.
  - left. split; auto. fold (v2i_op (v2i s) id st k) in H.
    destruct (v2i_op (v2i s) id st k) as [m []|]; [|discriminate]. injection H as <- _. eauto.
  - right. injection H as <- _; auto.
Qed.
Lemma v2i_op_done : forall m id st k m' u, lights_ok m -> v2i_op m id st k = Done m' u ->
  lights_ok m' /\ exists ids, light_ids rm id = Some ids /\ (forall w, ~ In w ids -> find_light m' w = find_light m w).
Proof.
  intros m id st k m' u OK H. destruct k; cbn in H.
  - destruct (set_done _ _ _ _ _ OK H) as (? & ids & ? & ? & _). eauto.
  - destruct (clear_done _ _ _ _ OK H) as (? & ids & ? & _ & ?). eauto.
  - destruct (add_done _ _ _ _ _ OK H) as (? & ids & ? & ? & _). eauto.
Qed.
Lemma mirror_ok : forall s id st k s' u, chan_ok s -> mirror co so ho rm s id st k = Done s' u ->
  chan_ok s' /\ conv s' = conv s /\ enabled s' = enabled s /\
  (forall w, ~ touches id w -> find_light (v2i s') w = find_light (v2i s) w).
Proof.
  intros s id st k s' u [C V] H. destruct (mirror_done _ _ _ _ _ _ H) as [(E & m & V' & ->)|(E & ->)].
  - destruct (v2i_op_done _ _ _ _ _ _ V V') as (OK & ids & L & K). cbn.
    split; [split; auto|]. split; auto. split; auto. intros w N. apply K. intros I; apply N. exists ids; auto.
  - split; [split; auto|auto].
Qed.

Lemma conv_clear_ok : forall s id s' u, chan_ok s -> conv_clear co so ho rm s id = Done s' u ->
  chan_ok s' /\ enabled s' = enabled s /\
  (forall w, ~ touches id w -> find_light (conv s') w = find_light (conv s) w /\
                               find_light (v2i s') w = find_light (v2i s) w).
Proof.
  intros s id s' u OK H. unfold conv_clear in H.
  destruct (clear_lights rm (conv s) id) as [m []|] eqn:C; [|discriminate].
  destruct (clear_done _ _ _ _ (proj1 OK) C) as (OK1 & ids & L & _ & K).
  destruct (mirror_ok (with_conv s m) id [] CLEAR s' u) as (A & B & D & E); auto.
  { split; [exact OK1|exact (proj2 OK)]. }
  split; auto. split; auto. intros w N. rewrite B. split; [|apply E; auto].
  cbn. apply K. intros I; apply N; exists ids; auto.
Qed.
Lemma conv_add_ok : forall s id st s' u, chan_ok s -> conv_add co so ho rm s id st = Done s' u ->
  chan_ok s' /\ enabled s' = enabled s /\
  (forall w, ~ touches id w -> find_light (conv s') w = find_light (conv s) w /\
                               find_light (v2i s') w = find_light (v2i s) w).
Proof.
  intros s id st s' u OK H. unfold conv_add in H.
  destruct (add_lights co so ho rm (conv s) id st) as [m []|] eqn:C; [|discriminate].
  destruct (add_done _ _ _ _ _ (proj1 OK) C) as (OK1 & ids & L & K & _).
  destruct (mirror_ok (with_conv s m) id st ADD s' u) as (A & B & D & E); auto.
  { split; [exact OK1|exact (proj2 OK)]. }
  split; auto. split; auto. intros w N. rewrite B. split; [|apply E; auto].
  cbn. apply K. intros I; apply N; exists ids; auto.
Qed.
Lemma conv_set_ok : forall s id st s' u, chan_ok s -> conv_set co so ho rm s id st = Done s' u ->
  chan_ok s' /\ enabled s' = enabled s /\
  (forall w, ~ touches id w -> find_light (conv s') w = find_light (conv s) w /\
                               find_light (v2i s') w = find_light (v2i s) w).
Proof.
  intros s id st s' u OK H. unfold conv_set in H.
  destruct (conv_clear co so ho rm s id) as [s1 []|] eqn:C; [|discriminate].
  destruct (conv_add co so ho rm s1 id st) as [s2 []|] eqn:A; [|discriminate].
  destruct (conv_clear_ok _ _ _ _ OK C) as (OK1 & E1 & K1).
  destruct (conv_add_ok _ _ _ _ _ OK1 A) as (OK2 & E2 & K2).
  destruct (mirror_ok _ _ _ _ _ _ OK2 H) as (OK3 & C3 & E3 & K3).
  split; auto. split; [congruence|]. intros w N. rewrite C3, K3 by auto.
  destruct (K1 w N) as [-> ->] || idtac. destruct (K2 w N) as [-> ->]. auto.
Qed.

Lemma fold_feature : forall ws s on, conv (fold_left (fun s w => set_feature_way rm s on w) ws s) = conv s /\
  v2i (fold_left (fun s w => set_feature_way rm s on w) ws s) = v2i s.
Proof.
  induction ws as [|w ws IH]; intros s on; cbn; auto.
  destruct (IH (set_feature_way rm s on w) on) as [-> ->].
  unfold set_feature_way. destruct (is_way rm w); auto.
Qed.
Lemma set_feature_lights : forall s id on s' u, set_feature rm s id on = Done s' u -> conv s' = conv s /\ v2i s' = v2i s.
Proof.
  intros s id on s' u H. unfold set_feature in H. destruct (relation rm id) as [[|w ws]|].
  - discriminate.
  - injection H as <- _. apply (fold_feature (w :: ws) s on).
  - injection H as <- _. unfold set_feature_way. destruct (is_way rm id); auto.
Qed.
Lemma enabled_in : forall s w, is_enabled s w = true <-> In w (enabled s).
Proof.
  intros s w. unfold is_enabled. rewrite existsb_exists. split.
  - intros (x & I & E). apply Z.eqb_eq in E. subst; auto.
  - intros I. exists w. split; auto. apply Z.eqb_refl.
Qed.
Lemma feature_way_in : forall s on i w, In w (enabled (set_feature_way rm s on i)) <->
  if on then In w (enabled s) \/ (w = i /\ is_way rm i = true)
  else In w (enabled s) /\ ~ (w = i /\ is_way rm i = true).
Proof.
  intros s on i w. unfold set_feature_way. destruct (is_way rm i); cbn.
  - destruct on.
    + destruct (is_enabled s i) eqn:E; cbn; intuition; subst; auto. apply enabled_in; auto.
    + rewrite filter_In, negb_true_iff, Z.eqb_neq. intuition.
  - destruct on; intuition discriminate.
Qed.
Lemma feature_fold_in : forall ws s on w, Forall (fun w => is_way rm w = true) ws ->
  (In w (enabled (fold_left (fun s w => set_feature_way rm s on w) ws s)) <->
   if on then In w (enabled s) \/ In w ws else In w (enabled s) /\ ~ In w ws).
Proof.
  induction ws as [|i ws IH]; intros s on w F; cbn [fold_left].
  - destruct on; cbn; intuition.
  - inversion F; subst. rewrite IH by auto. pose proof (feature_way_in s on i w) as X.
    destruct on; cbn [In]; rewrite X, H1; intuition.
Qed.
(** Enabling or disabling an id does so for exactly the lights it stands for. *)
Lemma set_feature_enabled : forall s id on s' u ids, light_ids rm id = Some ids ->
  set_feature rm s id on = Done s' u -> forall w,
  (In w (enabled s') <-> if on then In w (enabled s) \/ In w ids else In w (enabled s) /\ ~ In w ids).
Proof.
  intros s id on s' u ids L H w. unfold set_feature, light_ids in *.
  destruct (relation rm id) as [[|x ws]|] eqn:R.
  - discriminate.
  - injection L as <-. injection H as <- _. apply (feature_fold_in (x :: ws)). apply (RO _ _ R).
  - destruct (is_way rm id) eqn:W; [|discriminate]. injection L as <-. injection H as <- _.
    rewrite feature_way_in. cbn. destruct on; intuition.
Qed.
Lemma set_feature_none : forall s id on s' u, light_ids rm id = None ->
  set_feature rm s id on = Done s' u -> s' = s.
Proof.
  intros s id on s' u L H. unfold set_feature, light_ids in *.
  destruct (relation rm id) as [[|x ws]|] eqn:R; try discriminate.
  destruct (is_way rm id) eqn:W; [discriminate|]. injection H as <- _. unfold set_feature_way. rewrite W; auto.
Qed.

(** Mirroring of operations addressed to the light itself. *)
Variable w : Z.
Hypothesis W : is_way rm w = true.
Hypothesis NR : relation rm w = None.
Lemma ids_w : light_ids rm w = Some [w].
Proof. unfold light_ids. rewrite NR, W. auto. Qed.

Lemma becomes_at : forall m m' f, becomes rm m m' [w] f -> exists b, bulbs_at m' w = b /\ f (light_or_fresh rm m w) b.
Proof.
  intros m m' f [A _]. destruct (A w (or_introl eq_refl)) as (b & E & F). exists b. split; auto.
  rewrite (found _ _ _ E). reflexivity.
Qed.
Lemma shows_eq : forall a b P Q, shows a P -> shows b Q -> (forall x, P x <-> Q x) -> a = b.
Proof.
  intros a b P Q [SA IA] [SB IB] E. apply bulb_set_ext; auto. intros x. rewrite IA, IB. auto.
Qed.

Lemma mirror_clear_w : forall s s' u, chan_ok s -> is_enabled s w = true -> conv_clear co so ho rm s w = Done s' u ->
  agree s' w.
Proof.
  intros s s' u [C V] E H. unfold conv_clear in H.
  destruct (clear_lights_ok rm RO (conv s) w [w] ids_w) as (m & HC & B). rewrite HC in H.
  destruct (mirror_done _ _ _ _ _ _ H) as [(E' & m2 & V' & ->)|(E' & _)].
  2: { unfold is_enabled in *. cbn in E'. congruence. }
  cbn in V'. destruct (clear_lights_ok rm RO (v2i s) w [w] ids_w) as (m2' & HV & B2).
  rewrite HV in V'. injection V' as ->. unfold agree. cbn.
  destruct (becomes_at _ _ _ B) as (b & -> & ->). destruct (becomes_at _ _ _ B2) as (b & -> & ->). auto.
Qed.
Lemma mirror_add_w : forall s st s' u, chan_ok s -> is_enabled s w = true -> agree s w ->
  conv_add co so ho rm s w st = Done s' u -> agree s' w.
Proof.
  intros s st s' u [C V] E AG H. unfold conv_add in H.
  destruct (add_lights co so ho rm (conv s) w st) as [m []|] eqn:HA; [|discriminate].
  destruct (add_done _ _ _ _ _ C HA) as (_ & ids & L & _ & T). rewrite ids_w in L. injection L as <-.
  destruct T as [bs T]; [discriminate|].
  destruct (add_lights_ok co so ho O rm RO (conv s) w [w] st bs C ids_w T) as (m1 & HA1 & B).
  rewrite HA in HA1. injection HA1 as <-.
  destruct (mirror_done _ _ _ _ _ _ H) as [(E' & m2 & V' & ->)|(E' & _)].
  2: { unfold is_enabled in *. cbn in E'. congruence. }
  cbn in V'. destruct (add_lights_ok co so ho O rm RO (v2i s) w [w] st bs V ids_w T) as (m2' & HV & B2).
  rewrite HV in V'. injection V' as ->. unfold agree. cbn.
  destruct (becomes_at _ _ _ B) as (b & -> & F). destruct (becomes_at _ _ _ B2) as (b2 & -> & F2).
  eapply shows_eq; eauto. intros x. unfold agree, bulbs_at in AG. rewrite AG. tauto.
Qed.
Lemma mirror_set_w : forall s st s' u, chan_ok s -> is_enabled s w = true ->
  conv_set co so ho rm s w st = Done s' u ->
  agree s' w /\ exists bs, state_text st bs /\ shows (bulbs_at (conv s') w) (fun b => In b bs).
Proof.
  intros s st s' u OK E H. unfold conv_set in H.
  destruct (conv_clear co so ho rm s w) as [s1 []|] eqn:HC; [|discriminate].
  destruct (conv_add co so ho rm s1 w st) as [s2 []|] eqn:HA; [|discriminate].
  destruct (conv_clear_ok _ _ _ _ OK HC) as (OK1 & E1 & _).
  destruct (conv_add_ok _ _ _ _ _ OK1 HA) as (OK2 & E2 & _).
  (* conventional side *)
  assert (X : exists bs, state_text st bs /\ shows (bulbs_at (conv s2) w) (fun b => In b bs)).
  { unfold conv_clear in HC.
    destruct (clear_lights_ok rm RO (conv s) w [w] ids_w) as (m & HC' & B). rewrite HC' in HC.
    destruct (mirror_done _ _ _ _ _ _ HC) as [(_ & m2 & _ & ->)|(_ & ->)].
    - unfold conv_add in HA. cbn [conv with_conv with_v2i] in HA.
      destruct (add_lights co so ho rm m w st) as [m3 []|] eqn:HA'; [|discriminate].
      assert (OKm : lights_ok m) by exact (proj1 OK1).
      destruct (add_done _ _ _ _ _ OKm HA') as (_ & ids & L & _ & T). rewrite ids_w in L. injection L as <-.
      destruct T as [bs T]; [discriminate|]. exists bs. split; auto.
      destruct (add_lights_ok co so ho O rm RO m w [w] st bs OKm ids_w T) as (m3' & HA1 & B3).
      rewrite HA' in HA1. injection HA1 as <-.
      assert (conv s2 = m3). { destruct (mirror_done _ _ _ _ _ _ HA) as [(_ & ? & _ & ->)|(_ & ->)]; auto. }
      subst m3. destruct (becomes_at _ _ _ B3) as (b & -> & F). destruct (becomes_at _ _ _ B) as (b0 & E0 & ->).
      destruct F as [S I]. split; auto. intros x. rewrite I.
      unfold bulbs_at in E0. rewrite E0. cbn; tauto.
    - unfold conv_add in HA. cbn [conv with_conv with_v2i] in HA.
      destruct (add_lights co so ho rm m w st) as [m3 []|] eqn:HA'; [|discriminate].
      assert (OKm : lights_ok m) by exact (proj1 OK1).
      destruct (add_done _ _ _ _ _ OKm HA') as (_ & ids & L & _ & T). rewrite ids_w in L. injection L as <-.
      destruct T as [bs T]; [discriminate|]. exists bs. split; auto.
      destruct (add_lights_ok co so ho O rm RO m w [w] st bs OKm ids_w T) as (m3' & HA1 & B3).
      rewrite HA' in HA1. injection HA1 as <-.
      assert (conv s2 = m3). { destruct (mirror_done _ _ _ _ _ _ HA) as [(_ & ? & _ & ->)|(_ & ->)]; auto. }
      subst m3. destruct (becomes_at _ _ _ B3) as (b & -> & F). destruct (becomes_at _ _ _ B) as (b0 & E0 & ->).
      destruct F as [S I]. split; auto. intros x. rewrite I.
      unfold bulbs_at in E0. rewrite E0. cbn; tauto. }
  destruct X as (bs & T & SH).
  destruct (mirror_done _ _ _ _ _ _ H) as [(E' & m2 & V' & ->)|(E' & _)].
  2: { unfold is_enabled in *. congruence. }
  cbn in V'. destruct (set_lights_ok co so ho O rm RO (v2i s2) w [w] st bs (proj2 OK2) ids_w T) as (m2' & HV & B2).
  rewrite HV in V'. injection V' as ->. cbn. split; [|exists bs; auto].
  unfold agree. cbn. destruct (becomes_at _ _ _ B2) as (b2 & -> & F2).
  eapply shows_eq; eauto. tauto.
Qed.

(** Operations that leave the mirroring of [w] alone. *)
Definition allowed (o : op) : Prop :=
  match o with
  | ConvSet id _ | ConvAdd id _ | ConvClear id => id = w \/ ~ touches id w
  | V2ISet id _ | V2IAdd id _ | V2IClear id => ~ touches id w
  | Feature id on => on = true \/ ~ touches id w
  end.
Lemma step_agree : forall s o s' u, chan_ok s -> is_enabled s w = true -> agree s w -> allowed o ->
  exec co so ho rm s o = Done s' u -> chan_ok s' /\ is_enabled s' w = true /\ agree s' w.
Proof.
  intros s o s' u OK E AG AL H. destruct o as [id st|id st|id|id st|id st|id|id on]; cbn in H, AL.
  - destruct (conv_set_ok _ _ _ _ _ OK H) as (OK' & E' & K).
    split; auto. split; [unfold is_enabled in *; rewrite E'; auto|].
    destruct AL as [-> | N]; [exact (proj1 (mirror_set_w _ _ _ _ OK E H))|].
    destruct (K w N) as [A B]. unfold agree. rewrite (same_find _ _ _ A), (same_find _ _ _ B). auto.
  - destruct (conv_add_ok _ _ _ _ _ OK H) as (OK' & E' & K).
    split; auto. split; [unfold is_enabled in *; rewrite E'; auto|].
    destruct AL as [-> | N]; [exact (mirror_add_w _ _ _ _ OK E AG H)|].
    destruct (K w N) as [A B]. unfold agree. rewrite (same_find _ _ _ A), (same_find _ _ _ B). auto.
  - destruct (conv_clear_ok _ _ _ _ OK H) as (OK' & E' & K).
    split; auto. split; [unfold is_enabled in *; rewrite E'; auto|].
    destruct AL as [-> | N]; [exact (mirror_clear_w _ _ _ OK E H)|].
    destruct (K w N) as [A B]. unfold agree. rewrite (same_find _ _ _ A), (same_find _ _ _ B). auto.
  - fold (v2i_op (v2i s) id st SET) in H. unfold on_v2i in H.
    destruct (v2i_op (v2i s) id st SET) as [m []|] eqn:V; [|discriminate]. injection H as <- _.
    destruct (v2i_op_done _ _ _ _ _ _ (proj2 OK) V) as (OK2 & ids & L & K).
    split; [split; [apply OK|auto]|]. split; auto. unfold agree. cbn.
    rewrite (same_find (v2i s) m w); auto. apply K. intros I; apply AL; exists ids; auto.
  - fold (v2i_op (v2i s) id st ADD) in H. unfold on_v2i in H.
    destruct (v2i_op (v2i s) id st ADD) as [m []|] eqn:V; [|discriminate]. injection H as <- _.
    destruct (v2i_op_done _ _ _ _ _ _ (proj2 OK) V) as (OK2 & ids & L & K).
    split; [split; [apply OK|auto]|]. split; auto. unfold agree. cbn.
    rewrite (same_find (v2i s) m w); auto. apply K. intros I; apply AL; exists ids; auto.
  - fold (v2i_op (v2i s) id [] CLEAR) in H. unfold on_v2i in H.
    destruct (v2i_op (v2i s) id [] CLEAR) as [m []|] eqn:V; [|discriminate]. injection H as <- _.
    destruct (v2i_op_done _ _ _ _ _ _ (proj2 OK) V) as (OK2 & ids & L & K).
    split; [split; [apply OK|auto]|]. split; auto. unfold agree. cbn.
    rewrite (same_find (v2i s) m w); auto. apply K. intros I; apply AL; exists ids; auto.
  - destruct (set_feature_lights _ _ _ _ _ H) as [C V].
    split; [unfold chan_ok; rewrite C, V; auto|]. split; [|unfold agree; rewrite C, V; auto].
    apply enabled_in. apply enabled_in in E. destruct (light_ids rm id) as [ids|] eqn:L.
    + apply (set_feature_enabled s id on s' u ids L H w). destruct AL as [-> | N]; [left; auto|].
      assert (~ In w ids) by (intros I; apply N; exists ids; auto).
      destruct on; [left; auto|auto].
    + rewrite (set_feature_none _ _ _ _ _ L H). auto.
Qed.
Lemma run_agree : forall l s s' u, chan_ok s -> is_enabled s w = true -> agree s w -> Forall allowed l ->
  run co so ho rm s l = Done s' u -> chan_ok s' /\ is_enabled s' w = true /\ agree s' w.
Proof.
  induction l as [|o l IH]; intros s s' u OK E AG F H; cbn in H.
  - injection H as <- _; auto.
  - inversion F; subst. destruct (exec co so ho rm s o) as [s1 []|] eqn:X; [|discriminate].
    destruct (step_agree _ _ _ _ OK E AG H2 X) as (OK1 & E1 & AG1). eauto.
Qed.
End C.

(** ** Histories keep the maps well formed *)
Section H.
Variables co so ho : list str.
Hypothesis O : some_order co so ho.
Variable rm : road.
Hypothesis RO : road_ok rm.
Lemma exec_ok : forall s o s' u, chan_ok s -> exec co so ho rm s o = Done s' u -> chan_ok s'.
Proof.
  intros s o s' u OK H. destruct o as [id st|id st|id|id st|id st|id|id on]; cbn in H.
  - eapply conv_set_ok; eauto.
  - eapply conv_add_ok; eauto.
  - eapply conv_clear_ok; eauto.
  - unfold on_v2i in H. destruct (set_lights co so ho rm (v2i s) id st) as [m []|] eqn:V; [|discriminate].
    injection H as <- _. split; [apply OK|]. eapply set_done; eauto. apply OK.
  - unfold on_v2i in H. destruct (add_lights co so ho rm (v2i s) id st) as [m []|] eqn:V; [|discriminate].
    injection H as <- _. split; [apply OK|]. eapply add_done; eauto. apply OK.
  - unfold on_v2i in H. destruct (clear_lights rm (v2i s) id) as [m []|] eqn:V; [|discriminate].
    injection H as <- _. split; [apply OK|]. eapply clear_done; eauto. apply OK.
  - destruct (set_feature_lights _ _ _ _ _ _ H) as [C V]. unfold chan_ok. rewrite C, V. auto.
Qed.
Lemma run_ok : forall l s s' u, chan_ok s -> run co so ho rm s l = Done s' u -> chan_ok s'.
Proof.
  induction l as [|o l IH]; intros s s' u OK H; cbn in H; [injection H as <- _; auto|].
  destruct (exec co so ho rm s o) as [s1 []|] eqn:X; [|discriminate]. eauto using exec_ok.
Qed.
Lemma run_app : forall l l' s, run co so ho rm s (l ++ l') =
  match run co so ho rm s l with Done s1 _ => run co so ho rm s1 l' | Threw s1 => Threw s1 end.
Proof.
  induction l as [|o l IH]; intros l' s; cbn; auto. destruct (exec co so ho rm s o); auto.
Qed.
Definition start : channels := {| conv := []; v2i := []; enabled := [] |}.
Lemma start_ok : chan_ok start.
Proof. split; intros w l E; discriminate. Qed.
End H.
