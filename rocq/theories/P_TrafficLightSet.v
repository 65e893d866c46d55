From Coq Require Import Ascii String List Bool Arith ZArith Permutation Lia.
From Verif Require Import M_TrafficLight S_TrafficLight P_TrafficLight.
Import ListNotations.
Local Open Scope list_scope.

Lemma comma_dec : forall c : ascii, c = ","%char \/ c <> ","%char.
Proof. intros c. destruct (ascii_dec c ","%char); auto. Qed.
Definition after_comma (r : str) : str :=
  match r with ","%char :: r => skip_spaces r | _ => r end.
Lemma after_comma_other : forall c r, c <> ","%char -> after_comma (c :: r) = c :: r.
Proof.
  intros c r N. unfold after_comma. destruct c as [[] [] [] [] [] [] [] []]; try reflexivity.
  exfalso; apply N; reflexivity.
Qed.
Lemma split_eq : forall s, split s =
  let (head, rest) := span (fun c => is_word c || is_space c) s in
  match head with
  | c :: _ :: _ =>
      if is_word c then
        if existsb is_newline (after_comma rest) then None else Some (head, after_comma rest)
      else None
  | _ => None
  end.
Proof. reflexivity. Qed.

Lemma no_newline : forall t, existsb is_newline t = false <-> Forall (fun c => is_newline c = false) t.
Proof.
  induction t as [|c t IH]; cbn; [split; auto|]. rewrite orb_false_iff, IH.
  split; [intros []; auto|intros H; inversion H; auto].
Qed.

Lemma split_one : forall h, plain h -> starts_with_word h -> split h = Some (h, []).
Proof.
  intros h P (c & d & h' & -> & W). rewrite split_eq.
  pose proof (span_app (fun c => is_word c || is_space c) (c :: d :: h') [] P) as S.
  rewrite app_nil_r in S. rewrite S by discriminate. cbn. rewrite W. reflexivity.
Qed.
Lemma split_comma : forall h w t, plain h -> starts_with_word h -> blank w ->
  (forall c t', t = c :: t' -> is_space c = false) -> Forall (fun c => is_newline c = false) t ->
  split (h ++ ","%char :: w ++ t) = Some (h, t).
Proof.
  intros h w t P (c & d & h' & -> & W) B N F. rewrite split_eq.
  rewrite (span_app _ (c :: d :: h') (","%char :: w ++ t) P).
  2: { intros x r' E. injection E as <- _. reflexivity. }
  rewrite W. cbn [after_comma]. rewrite skip_spaces_app by auto.
  rewrite (proj2 (no_newline t) F). reflexivity.
Qed.
Lemma split_inv : forall s h t, split s = Some (h, t) ->
  plain h /\ starts_with_word h /\
  ((s = h /\ t = []) \/
   (exists w, s = h ++ ","%char :: w ++ t /\ blank w /\
      (forall c t', t = c :: t' -> is_space c = false) /\ Forall (fun c => is_newline c = false) t) \/
   (t <> [] /\ split t = None)).
Proof.
  intros s h t H. rewrite split_eq in H. destruct (span _ s) as [a r] eqn:S.
  apply span_spec in S as (-> & P & N). destruct a as [|c [|d a]]; try discriminate.
  destruct (is_word c) eqn:W; [|discriminate].
  destruct (existsb is_newline (after_comma r)) eqn:NL; [discriminate|].
  injection H as <- <-. split; [exact P|]. split; [exists c, d, a; auto|].
  destruct r as [|x r].
  - left. rewrite app_nil_r. auto.
  - destruct (comma_dec x) as [-> | X].
    + right; left. cbn [after_comma] in *. destruct (skip_spaces_spec r) as (w & E & B & NB).
      exists w. split; [rewrite <- E; auto|]. split; auto. split; auto. apply no_newline; auto.
    + right; right. rewrite after_comma_other by auto. split; [discriminate|].
      rewrite split_eq. cbn. rewrite (N _ _ eq_refl). reflexivity.
Qed.

Lemma state_text_cons_nonempty : forall s bs, state_text s bs -> s = [] -> bs = [].
Proof.
  intros s bs H E. destruct H; auto.
  - subst. destruct H0 as (? & ? & ? & ? & _). discriminate.
  - destruct h; discriminate.
Qed.

Section S.
Variables co so ho : list str.
Hypothesis O : some_order co so ho.

Lemma make_reads : forall s b, reads s b -> bulb_make co so ho s = Some b.
Proof. intros s b R. apply (bulb_make_iff co so ho s b O); auto. Qed.

Lemma set_state_ok : forall s bs, state_text s bs -> forall l, bulb_set l ->
  exists l', set_state co so ho l s = Set_ok l' /\ shows l' (fun b => In b l \/ In b bs).
Proof.
  intros s bs H; induction H as [|h b P W R|h b w t bs P W R B N F T IH]; intros l L.
  - exists l. split; [reflexivity|]. split; auto. cbn; tauto.
  - assert (h <> []) by (destruct W as (? & ? & ? & -> & _); discriminate).
    rewrite set_state_cons by auto. rewrite split_one by auto. rewrite (make_reads _ _ R).
    exists (emplace b l). split; [reflexivity|]. split; [apply emplace_set; auto|].
    intros x. rewrite emplace_in. cbn. intuition.
  - assert (h <> []) by (destruct W as (? & ? & ? & -> & _); discriminate).
    rewrite set_state_cons by (destruct h; [congruence|discriminate]).
    rewrite split_comma by auto. rewrite (make_reads _ _ R).
    destruct (IH (emplace b l) (emplace_set b l L)) as (l' & E & S & I).
    exists l'. split; auto. split; auto. intros x. rewrite I, emplace_in. cbn. intuition.
Qed.
Lemma set_state_text : forall n s l l', (length s <= n)%nat -> set_state co so ho l s = Set_ok l' ->
  exists bs, state_text s bs.
Proof.
  induction n as [|n IH]; intros s l l' L H.
  - destruct s; [|cbn in L; lia]. exists []; constructor.
  - destruct s as [|c s]; [exists []; constructor|].
    rewrite set_state_cons in H by discriminate.
    destruct (split (c :: s)) as [[h t]|] eqn:S; [|discriminate].
    destruct (bulb_make co so ho h) as [b|] eqn:M; [|discriminate].
    apply (bulb_make_iff co so ho h b O) in M.
    pose proof (split_shorter _ _ _ S) as SS.
    destruct (split_inv _ _ _ S) as (P & W & [[-> ->]|[(w & E & B & N & F)|[T N]]]).
    + exists [b]. constructor; auto.
    + destruct (IH t (emplace b l) l') as [bs T]; [cbn in *; lia|auto|].
      exists (b :: bs). rewrite E. constructor; auto.
    + exfalso. rewrite set_state_cons in H by auto. rewrite N in H. discriminate.
Qed.
Lemma set_state_no_fuel : forall l s, set_state co so ho l s <> NoFuel.
Proof. intros. apply light_set_fuel; auto. Qed.
Lemma set_state_set : forall n s l, (length s <= n)%nat -> bulb_set l ->
  match set_state co so ho l s with Set_ok l' | Set_error l' => bulb_set l' | NoFuel => False end.
Proof.
  induction n as [|n IH]; intros s l L B.
  - destruct s; [exact B|cbn in L; lia].
  - destruct s as [|c s]; [exact B|]. rewrite set_state_cons by discriminate.
    destruct (split (c :: s)) as [[h t]|] eqn:S; auto.
    destruct (bulb_make co so ho h); auto. apply IH; [|apply emplace_set; auto].
    apply split_shorter in S. cbn in *; lia.
Qed.

(** ** Printing a light *)
Lemma print_plain : forall b, plain (print_bulb b).
Proof. intros [c s h]. destruct c, s, h; repeat constructor. Qed.
Lemma print_word : forall b, starts_with_word (print_bulb b).
Proof. intros [c s h]. destruct c; do 3 eexists; split; reflexivity. Qed.
Lemma print_no_newline : forall b, Forall (fun c => is_newline c = false) (print_bulb b).
Proof. intros [c s h]. destruct c, s, h; repeat constructor. Qed.
Lemma print_bulbs_no_newline : forall l sep, Forall (fun c => is_newline c = false) sep ->
  Forall (fun c => is_newline c = false) (print_bulbs sep l).
Proof.
  induction l as [|b l IH]; intros sep S; cbn; auto.
  apply Forall_app; split; auto. apply Forall_app; split; [apply print_no_newline|].
  apply IH. repeat constructor.
Qed.
Lemma print_text : forall l, state_text (print_light l) l.
Proof.
  unfold print_light. induction l as [|b l IH]; [constructor|].
  change (print_bulbs [] (b :: l)) with (print_bulb b ++ print_bulbs (text ", ") l).
  destruct l as [|b' l].
  - change (print_bulbs (text ", ") []) with (@nil ascii). rewrite app_nil_r.
    constructor; auto using print_plain, print_word, print_reads.
  - replace (print_bulbs (text ", ") (b' :: l)) with (","%char :: text " " ++ print_bulbs [] (b' :: l)).
    2: reflexivity.
    apply state_cons; auto using print_plain, print_word, print_reads.
    + repeat constructor.
    + intros c t' E. cbn in E. destruct b' as [c' s' h'].
      destruct c'; cbn in E; injection E as <- _; reflexivity.
    + apply print_bulbs_no_newline; constructor.
Qed.

(** ** Maps of lights *)
Lemma find_update : forall m id f w,
  find_light (update_light m id f) w =
  if (w =? id)%Z then option_map f (find_light m id) else find_light m w.
Proof.
  induction m as [|[i l] m IH]; intros id f w; cbn.
  - destruct (w =? id)%Z; auto.
  - destruct (Z.eqb_spec i id) as [-> | N]; cbn.
    + destruct (Z.eqb_spec w id) as [-> | N']; cbn.
      * rewrite Z.eqb_refl; auto.
      * destruct (Z.eqb_spec id w); [congruence|auto].
    + rewrite IH. destruct (Z.eqb_spec w id), (Z.eqb_spec i w); auto; congruence.
Qed.

Variable rm : road.
(** The members of relations are traffic lights. *)
Definition road_ok : Prop := forall r ws, relation rm r = Some ws -> Forall (fun w => is_way rm w = true) ws.

Definition lights_ok (m : lights) : Prop :=
  forall w l, find_light m w = Some l -> bulb_set (l_bulbs l) /\ l_way l = w.

Lemma light_ids_way : road_ok -> forall id ids w, light_ids rm id = Some ids -> In w ids -> is_way rm w = true.
Proof.
  intros RO id ids w H I. unfold light_ids in H. destruct (relation rm id) as [ws|] eqn:R.
  - injection H as <-. pose proof (RO _ _ R) as F. rewrite Forall_forall in F. auto.
  - destruct (is_way rm id) eqn:W; [|discriminate]. injection H as <-. destruct I as [<- | []]; auto.
Qed.
Definition fresh (w : Z) : light :=
  {| l_way := w; l_relations := relations_of rm w; l_confidence := 1; l_bulbs := [] |}.
Lemma new_light_way : forall w, is_way rm w = true -> new_light rm w = Some (fresh w).
Proof. intros w W. unfold new_light, way_id. rewrite W. reflexivity. Qed.

(** What a light is before it is first used. *)
Definition light_or_fresh (m : lights) (w : Z) : light :=
  match find_light m w with Some l => l | None => fresh w end.

Lemma get_each_ok : forall ids m, Forall (fun w => is_way rm w = true) ids ->
  exists m', get_each rm m ids = Done m' tt /\
    (forall w, In w ids -> find_light m' w = Some (light_or_fresh m w)) /\
    (forall w, ~ In w ids -> find_light m' w = find_light m w).
Proof.
  induction ids as [|id ids IH]; intros m F.
  - exists m. split; auto. split; auto. intros w [].
  - inversion F; subst. cbn. unfold get_light. destruct (find_light m id) as [l|] eqn:E.
    + destruct (IH m H2) as (m' & G & A & B). exists m'. split; auto. split.
      * intros w [<- | I]; auto. destruct (in_dec Z.eq_dec id ids) as [J|J]; auto.
        rewrite B by auto. rewrite E. unfold light_or_fresh. rewrite E. auto.
      * intros w N. apply B. intros I; apply N; right; auto.
    + rewrite new_light_way by auto.
      destruct (IH ((id, fresh id) :: m) H2) as (m' & G & A & B). exists m'. split; auto.
      assert (X : forall w, light_or_fresh ((id, fresh id) :: m) w = light_or_fresh m w).
      { intros w. unfold light_or_fresh. cbn. destruct (Z.eqb_spec id w) as [-> | ]; auto. rewrite E; auto. }
      split.
      * intros w [<- | I].
        -- destruct (in_dec Z.eq_dec id ids) as [J|J]; [rewrite A, X; auto|].
           rewrite B by auto. cbn. rewrite Z.eqb_refl. unfold light_or_fresh. rewrite E; auto.
        -- rewrite A, X; auto.
      * intros w N. rewrite B by (intros I; apply N; right; auto). cbn.
        destruct (Z.eqb_spec id w); auto. exfalso; apply N; left; auto.
Qed.
Lemma get_lights_ok : road_ok -> forall m id ids, light_ids rm id = Some ids ->
  exists m', get_lights rm m id = Done m' ids /\
    (forall w, In w ids -> find_light m' w = Some (light_or_fresh m w)) /\
    (forall w, ~ In w ids -> find_light m' w = find_light m w).
Proof.
  intros RO m id ids H. unfold get_lights. rewrite H.
  destruct (get_each_ok ids m) as (m' & G & A & B).
  { apply Forall_forall. intros w I. eapply light_ids_way; eauto. }
  exists m'. rewrite G. auto.
Qed.
Lemma get_lights_bad : forall m id, light_ids rm id = None -> get_lights rm m id = Threw m.
Proof. intros m id H. unfold get_lights. rewrite H. reflexivity. Qed.

Lemma clear_each_find : forall ids m w,
  find_light (clear_each m ids) w =
  if in_dec Z.eq_dec w ids then option_map (fun l => with_bulbs l []) (find_light m w) else find_light m w.
Proof.
  unfold clear_each. induction ids as [|id ids IH]; intros m w; auto.
  cbn [fold_left]. rewrite IH, find_update.
  destruct (in_dec Z.eq_dec w ids) as [I|I], (in_dec Z.eq_dec w (id :: ids)) as [J|J],
    (Z.eqb_spec w id) as [N | N]; auto; try (exfalso; cbn in J; intuition; fail); subst w;
  destruct (find_light m id); reflexivity.
Qed.

Lemma set_each_ok : forall s bs, state_text s bs -> forall ids m,
  lights_ok m -> (forall w, In w ids -> exists l, find_light m w = Some l) ->
  exists m', set_each co so ho m ids s = Done m' tt /\
    (forall w l, In w ids -> find_light m w = Some l ->
       exists b, find_light m' w = Some (with_bulbs l b) /\ shows b (fun x => In x (l_bulbs l) \/ In x bs)) /\
    (forall w, ~ In w ids -> find_light m' w = find_light m w).
Proof.
  intros s bs T. induction ids as [|id ids IH]; intros m OK D.
  - exists m. split; auto. split; auto. intros w l [].
  - destruct (D id (or_introl eq_refl)) as [l E]. cbn [set_each]. rewrite E.
    destruct (OK _ _ E) as [BS WY].
    destruct (set_state_ok _ _ T (l_bulbs l) BS) as (b & EB & SH). rewrite EB.
    set (m1 := update_light m id (fun l => with_bulbs l b)).
    assert (F1 : forall w, find_light m1 w = if (w =? id)%Z then Some (with_bulbs l b) else find_light m w).
    { intros w. unfold m1. rewrite find_update, E. auto. }
    destruct (IH m1) as (m' & G & A & B).
    + intros w l' H. rewrite F1 in H. destruct (Z.eqb_spec w id) as [-> | N]; auto.
      injection H as <-. cbn. split; [apply SH|auto].
    + intros w I. rewrite F1. destruct (w =? id)%Z; eauto. apply D; right; auto.
    + exists m'. split; auto. split.
      * intros w l0 I E0. destruct (Z.eq_dec w id) as [-> | N].
        -- rewrite E in E0. injection E0 as <-.
           destruct (in_dec Z.eq_dec id ids) as [J|J].
           ++ destruct (A id (with_bulbs l b) J) as (b' & F' & SH'); [rewrite F1, Z.eqb_refl; auto|].
              exists b'. split; [exact F'|]. split; [apply SH'|]. intros x.
              rewrite (proj2 SH' x). cbn. rewrite (proj2 SH x). tauto.
           ++ exists b. rewrite B, F1, Z.eqb_refl by auto. auto.
        -- destruct I as [I|I]; [congruence|]. apply A; auto.
           rewrite F1. destruct (Z.eqb_spec w id); [congruence|auto].
      * intros w N. rewrite B by (intros I; apply N; right; auto). rewrite F1.
        destruct (Z.eqb_spec w id) as [-> | ]; auto. exfalso; apply N; left; auto.
Qed.

(** Results, in terms of what each light becomes. *)
Definition becomes (m m' : lights) (ids : list Z) (f : light -> list bulb -> Prop) : Prop :=
  (forall w, In w ids -> exists b, find_light m' w = Some (with_bulbs (light_or_fresh m w) b) /\
      f (light_or_fresh m w) b) /\
  (forall w, ~ In w ids -> find_light m' w = find_light m w).

Lemma with_bulbs_same : forall l, with_bulbs l (l_bulbs l) = l.
Proof. intros []; reflexivity. Qed.
Lemma with_with : forall l a b, with_bulbs (with_bulbs l a) b = with_bulbs l b.
Proof. reflexivity. Qed.
Lemma or_fresh_ok : forall m w, lights_ok m -> bulb_set (l_bulbs (light_or_fresh m w)).
Proof.
  intros m w OK. unfold light_or_fresh. destruct (find_light m w) as [l|] eqn:E; [apply (OK _ _ E)|constructor].
Qed.
Lemma or_fresh_way : forall m w, lights_ok m -> l_way (light_or_fresh m w) = w.
Proof.
  intros m w OK. unfold light_or_fresh. destruct (find_light m w) as [l|] eqn:E; [apply (OK _ _ E)|reflexivity].
Qed.
Lemma becomes_ok : forall m m' ids f, lights_ok m -> becomes m m' ids f ->
  (forall l b, f l b -> bulb_set b) -> lights_ok m'.
Proof.
  intros m m' ids f OK [A B] F w l E. destruct (in_dec Z.eq_dec w ids) as [I|I].
  - destruct (A w I) as (b & E' & Fb). rewrite E in E'. injection E' as ->. cbn.
    split; [eapply F; eauto|apply or_fresh_way; auto].
  - rewrite B in E by auto. apply OK; auto.
Qed.

Lemma clear_lights_ok : road_ok -> forall m id ids, light_ids rm id = Some ids ->
  exists m', clear_lights rm m id = Done m' tt /\ becomes m m' ids (fun _ b => b = []).
Proof.
  intros RO m id ids H. unfold clear_lights.
  destruct (get_lights_ok RO m id ids H) as (m1 & G & A & B). rewrite G.
  exists (clear_each m1 ids). split; auto. split.
  - intros w I. exists []. split; auto. rewrite clear_each_find.
    destruct (in_dec Z.eq_dec w ids); [|contradiction]. rewrite A by auto. auto.
  - intros w N. rewrite clear_each_find. destruct (in_dec Z.eq_dec w ids); [contradiction|auto].
Qed.
Lemma add_lights_ok : road_ok -> forall m id ids s bs, lights_ok m -> light_ids rm id = Some ids ->
  state_text s bs ->
  exists m', add_lights co so ho rm m id s = Done m' tt /\
    becomes m m' ids (fun l b => shows b (fun x => In x (l_bulbs l) \/ In x bs)).
Proof.
  intros RO m id ids s bs OK H T. unfold add_lights.
  destruct (get_lights_ok RO m id ids H) as (m1 & G & A & B). rewrite G.
  assert (OK1 : lights_ok m1).
  { intros w l E. destruct (in_dec Z.eq_dec w ids) as [I|I].
    - rewrite A in E by auto. injection E as <-. auto using or_fresh_ok, or_fresh_way.
    - rewrite B in E by auto. apply OK; auto. }
  destruct (set_each_ok s bs T ids m1 OK1) as (m' & S & C & D).
  { intros w I. rewrite A by auto. eauto. }
  exists m'. split; auto. split.
  - intros w I. apply (C w); auto.
  - intros w N. rewrite D, B; auto.
Qed.
Lemma becomes_trans : forall a b c ids f g,
  becomes a b ids f -> becomes b c ids g ->
  becomes a c ids (fun l x => exists y, f l y /\ g (with_bulbs l y) x).
Proof.
  intros a b c ids f g [A1 B1] [A2 B2]. split.
  - intros w I. destruct (A1 w I) as (y & E1 & F). destruct (A2 w I) as (x & E2 & G).
    unfold light_or_fresh at 1 in E2. unfold light_or_fresh at 1 in G. rewrite E1 in E2, G.
    exists x. split; auto. exists y; auto.
  - intros w N. rewrite B2, B1; auto.
Qed.
Lemma becomes_weaken : forall a b ids (f g : light -> list bulb -> Prop),
  becomes a b ids f -> (forall l x, f l x -> g l x) -> becomes a b ids g.
Proof.
  intros a b ids f g [A B] H. split; auto. intros w I. destruct (A w I) as (x & E & F). exists x; auto.
Qed.
Lemma set_lights_ok : road_ok -> forall m id ids s bs, lights_ok m -> light_ids rm id = Some ids ->
  state_text s bs ->
  exists m', set_lights co so ho rm m id s = Done m' tt /\
    becomes m m' ids (fun _ b => shows b (fun x => In x bs)).
Proof.
  intros RO m id ids s bs OK H T. unfold set_lights.
  destruct (clear_lights_ok RO m id ids H) as (m1 & C & B1). rewrite C.
  assert (OK1 : lights_ok m1) by (eapply becomes_ok; eauto; cbn; intros; subst; constructor).
  destruct (add_lights_ok RO m1 id ids s bs OK1 H T) as (m2 & A & B2). exists m2. split; auto.
  eapply becomes_weaken; [eapply becomes_trans; eauto|].
  intros l x (y & -> & S & I). split; auto. intros b. rewrite I. cbn. tauto.
Qed.

(** Failures. *)
Lemma set_each_any : forall s ids m, lights_ok m -> (forall w, In w ids -> exists l, find_light m w = Some l) ->
  match set_each co so ho m ids s with
  | Done m' _ | Threw m' =>
      lights_ok m' /\ (forall w, ~ In w ids -> find_light m' w = find_light m w)
  end /\
  (forall m' u, ids <> [] -> set_each co so ho m ids s = Done m' u -> exists bs, state_text s bs).
Proof.
  intros s. induction ids as [|id ids IH]; intros m OK D.
  - split; [cbn; auto|]. intros m' u N; congruence.
  - destruct (D id (or_introl eq_refl)) as [l E]. cbn [set_each]. rewrite E.
    destruct (OK _ _ E) as [BS WY]. pose proof (set_state_set (length s) s (l_bulbs l) (le_n _) BS) as SS.
    destruct (set_state co so ho (l_bulbs l) s) as [b|b|] eqn:SE; [| |contradiction].
    + destruct (IH (update_light m id (fun l => with_bulbs l b))) as [IH1 _].
      * intros w l' H. rewrite find_update, E in H. destruct (Z.eqb_spec w id) as [-> | N]; auto.
        injection H as <-. cbn; auto.
      * intros w I. rewrite find_update, E. destruct (w =? id)%Z; cbn; eauto. apply D; right; auto.
      * assert (K : forall w, ~ In w (id :: ids) -> find_light (update_light m id (fun l => with_bulbs l b)) w = find_light m w).
        { intros w N. rewrite find_update. destruct (Z.eqb_spec w id) as [-> | ]; auto. exfalso; apply N; left; auto. }
        split.
        -- destruct (set_each co so ho _ ids s) as [m' u|m']; destruct IH1 as [P Q]; split; auto;
             intros w N; rewrite Q, K; auto; intros I; apply N; right; auto.
        -- intros. eapply set_state_text; eauto.
    + split.
      * split.
        -- intros w l' H. rewrite find_update, E in H. destruct (Z.eqb_spec w id) as [-> | N]; auto.
           injection H as <-. cbn; auto.
        -- intros w N. rewrite find_update. destruct (Z.eqb_spec w id) as [-> | ]; auto. exfalso; apply N; left; auto.
      * intros; discriminate.
Qed.
Lemma get_lights_keep : road_ok -> forall m id ids m1, lights_ok m -> light_ids rm id = Some ids ->
  get_lights rm m id = Done m1 ids ->
  lights_ok m1 /\ (forall w, In w ids -> exists l, find_light m1 w = Some l) /\
  (forall w, ~ In w ids -> find_light m1 w = find_light m w).
Proof.
  intros RO m id ids m1 OK H G. destruct (get_lights_ok RO m id ids H) as (m1' & G' & A & B).
  rewrite G in G'. injection G' as <-. split; [|split; auto].
  - intros w l E. destruct (in_dec Z.eq_dec w ids) as [I|I].
    + rewrite A in E by auto. injection E as <-. auto using or_fresh_ok, or_fresh_way.
    + rewrite B in E by auto. apply OK; auto.
  - intros w I. rewrite A by auto. eauto.
Qed.
Lemma set_lights_bad : road_ok -> forall m id ids s, lights_ok m -> light_ids rm id = Some ids -> ids <> [] ->
  (forall bs, ~ state_text s bs) ->
  exists m', set_lights co so ho rm m id s = Threw m' /\
    lights_ok m' /\ (forall w, ~ In w ids -> find_light m' w = find_light m w).
Proof.
  intros RO m id ids s OK H NE B. unfold set_lights.
  destruct (clear_lights_ok RO m id ids H) as (m1 & C & B1). rewrite C.
  assert (OK1 : lights_ok m1) by (eapply becomes_ok; eauto; cbn; intros; subst; constructor).
  unfold add_lights. destruct (get_lights_ok RO m1 id ids H) as (m2 & G & _). rewrite G.
  destruct (get_lights_keep RO m1 id ids m2 OK1 H G) as (OK2 & D2 & K2).
  destruct (set_each_any s ids m2 OK2 D2) as [X Y].
  destruct (set_each co so ho m2 ids s) as [m' []|m'] eqn:E.
  - exfalso. destruct (Y m' tt NE eq_refl) as [bs T]. apply (B bs T).
  - destruct X as [X1 X2]. exists m'. split; auto. split; auto.
    intros w N. rewrite X2, K2 by auto. apply (proj2 B1); auto.
Qed.
End S.
