(** Which noise entities get (C220, C221) and what noise does to point clouds (C222-C224). *)
From Coq Require Import Reals List Ascii String Bool PeanoNat Lia Lra.
From Verif Require Import M_LidarNoise S_LidarNoise P_LidarNoise.
Import ListNotations.
Local Open Scope R_scope.

(** ** C220 *)
Theorem C220_wildcards : forall pattern text, plain pattern -> one_line text ->
  exists b, regex_match text pattern = Some b /\ (b = true <-> fits pattern text).
Proof. intros p t H L. apply regex_match_plain; assumption. Qed.

Example C220_wildcards_case : fits "npc_?*" "npc_12" /\ ~ fits "npc_?" "npc_12".
Proof.
  split.
  - assert (E : regex_match "npc_12" "npc_?*" = Some true) by reflexivity.
    destruct (C220_wildcards "npc_?*" "npc_12") as [b [B F]].
    + intros c W X. cbn in W, X. intuition congruence.
    + split; cbn; intuition congruence.
    + rewrite E in B. injection B as <-. apply F. reflexivity.
  - assert (E : regex_match "npc_12" "npc_?" = Some false) by reflexivity.
    destruct (C220_wildcards "npc_?" "npc_12") as [b [B F]].
    + intros c W X. cbn in W, X. intuition congruence.
    + split; cbn; intuition congruence.
    + rewrite E in B. injection B as <-. intro X. apply F in X. discriminate.
Qed.

Theorem C220_dot_refuted : regex_match "npcX1" "npc.1" = Some true /\ ~ fits "npc.1" "npcX1".
Proof.
  split; [reflexivity|]. intro F.
  repeat (match goal with H : fits _ _ |- _ => inversion H; clear H; subst end); congruence.
Qed.

Lemma belongs_name : forall t v n p, belongs t v n p <-> n <> EmptyString /\ config_name p (base_path t v) = n.
Proof.
  intros t v n p. unfold belongs. split.
  - intros [N [W [r ->]]]. split; [exact N|]. apply config_name_spec; [exact N|]. split; [exact W|].
    exists r. unfold base_path. rewrite !app_assoc_s. reflexivity.
  - intros [N C]. apply config_name_spec in C as [W [r ->]]; [|exact N]. split; [exact N|]. split; [exact W|].
    exists r. unfold base_path. rewrite !app_assoc_s. reflexivity.
Qed.
Lemma empty_spec : forall s, empty s = false <-> s <> EmptyString.
Proof. intros [|c s]; cbn; split; congruence. Qed.

Lemma find_in_spec : forall P t v e, readable P e -> forall l,
  (exists n, find_in P (base_path t v) e l = Some n /\ n <> EmptyString /\
     exists before p behind, l = (before ++ p :: behind)%list /\ belongs t v n p /\ meant P t v n e /\
       forall q other, In q before -> belongs t v other q -> ~ meant P t v other e) \/
  (find_in P (base_path t v) e l = Some EmptyString /\
     forall q other, In q l -> belongs t v other q -> ~ meant P t v other e).
Proof.
  intros P t v e R l. induction l as [|p l IH].
  - right. split; [reflexivity|]. intros q other [].
  - cbn [find_in]. destruct (empty (config_name p (base_path t v))) eqn:E.
    + assert (NB : forall other, ~ belongs t v other p).
      { intros other B. apply belongs_name in B as [N C]. rewrite C in E. apply empty_spec in N. congruence. }
      destruct IH as [[n [F [N [b [q [a [-> [B [M O]]]]]]]]]|[F O]].
      * left. exists n. split; [exact F|]. split; [exact N|]. exists (p :: b), q, a.
        split; [reflexivity|]. split; [exact B|]. split; [exact M|].
        intros x other [<-|I] X; [destruct (NB other X)|]. apply (O x other I X).
      * right. split; [exact F|]. intros x other [<-|I] X; [destruct (NB other X)|]. apply (O x other I X).
    + apply empty_spec in E. destruct (applies_meant P t v (config_name p (base_path t v)) e R) as [b [A B]].
      rewrite A. destruct b.
      * left. exists (config_name p (base_path t v)). split; [reflexivity|]. split; [exact E|].
        exists [], p, l. split; [reflexivity|]. split; [apply belongs_name; split; [exact E | reflexivity]|].
        split; [apply B; reflexivity|]. intros q other [].
      * assert (NM : forall other, belongs t v other p -> ~ meant P t v other e).
        { intros other X M. apply belongs_name in X as [_ C]. rewrite C in B. apply B in M. discriminate. }
        destruct IH as [[n [F [N [b [q [a [-> [X [M O]]]]]]]]]|[F O]].
        -- left. exists n. split; [exact F|]. split; [exact N|]. exists (p :: b), q, a.
           split; [reflexivity|]. split; [exact X|]. split; [exact M|].
           intros x other [<-|I] Y; [exact (NM other Y)|]. apply (O x other I Y).
        -- right. split; [exact F|]. intros x other [<-|I] Y; [exact (NM other Y)|]. apply (O x other I Y).
Qed.

Theorem C220_found : forall P t v e, readable P e ->
  exists n, find_matching P e v t = Some n /\
    (n <> EmptyString -> first_meant P t v n e) /\
    (n = EmptyString -> forall name, there P t v name -> ~ meant P t v name e).
Proof.
  intros P t v e R. unfold find_matching, first_meant.
  destruct (find_in_spec P t v e R (listed P)) as [[n [F [N X]]]|[F O]].
  - exists n. split; [exact F|]. split; [intros _; exact X | congruence].
  - exists EmptyString. split; [exact F|]. split; [congruence|].
    intros _ name [N [W [r I]]]. apply (O _ name I). split; [exact N|]. split; [exact W|]. exists r. reflexivity.
Qed.

Theorem C220_listed : forall P t v n, In n (available P t v) <-> there P t v n.
Proof. exact available_spec. Qed.

(** ** C221 *)
Lemma make_all_spec : forall P t names l, make_all P t names = Some l ->
  forall n, match assoc n l with Some c => In n names /\ make_config P t n = Some c | None => ~ In n names end.
Proof.
  intros P t names. induction names as [|a names IH]; intros l E n.
  - injection E as <-. cbn. tauto.
  - cbn [make_all] in E. destruct (make_config P t a) as [c|] eqn:C; [|discriminate].
    destruct (make_all P t names) as [l'|] eqn:L; [|discriminate]. injection E as <-.
    specialize (IH l' eq_refl n). cbn [assoc]. destruct (String.eqb_spec a n) as [->|N].
    + split; [left; reflexivity | exact C].
    + destruct (assoc n l'); [destruct IH; split; [right|]; assumption|].
      intros [X|X]; [congruence | exact (IH X)].
Qed.
Lemma first_there : forall P t v n e, first_meant P t v n e -> there P t v n.
Proof.
  intros P t v n e [b [p [a [L [[N [W [r ->]]] _]]]]]. split; [exact N|]. split; [exact W|]. exists r.
  rewrite L. apply in_or_app. right. left. reflexivity.
Qed.

(** What a model that has been asked anything remembers. *)
Lemma asked_same : forall P l m m', asked P m l = Some m' -> topic m' = topic m /\ configs m' = configs m.
Proof.
  intros P l. induction l as [|e l IH]; intros m m' A; cbn [asked] in A.
  - injection A as <-. split; reflexivity.
  - destruct (config_for P m e) as [[r m1]|] eqn:C; [|discriminate]. apply IH in A as [A1 A2].
    unfold config_for in C. destruct (assoc (entity_name e) (known m)); [injection C as _ <-; split; assumption|].
    destruct (find_matching P e "v1" (topic m)) as [n|]; [|discriminate].
    destruct (empty n); [injection C as _ <-; split; assumption|].
    destruct (assoc n (configs m)); [injection C as _ <-; split; assumption | discriminate].
Qed.

Lemma answered : forall P t m0 m e, make_model P t = Some m0 -> topic m = topic m0 -> configs m = configs m0 ->
  readable P e -> assoc (entity_name e) (known m) = None ->
  exists r, config_for P m e = Some (r, model (topic m) (configs m) ((entity_name e, r) :: known m)) /\ answer P t e r.
Proof.
  intros P t m0 m e M T C R K. unfold make_model in M.
  destruct (make_all P t (available P t "v1")) as [l|] eqn:A; [|discriminate]. injection M as <-.
  cbn [topic configs] in T, C. unfold config_for. rewrite K, T, C.
  destruct (C220_found P t "v1" e R) as [n [F [X Y]]]. rewrite F.
  destruct (empty n) eqn:E.
  - exists None. split; [reflexivity|]. destruct n; [|discriminate]. exact (Y eq_refl).
  - apply empty_spec in E. specialize (X E). pose proof (make_all_spec P t _ _ A n) as S.
    destruct (assoc n l) as [c|].
    + exists (Some c). split; [reflexivity|]. exists n. split; [exact X | apply S].
    + exfalso. apply S. apply available_spec. apply (first_there _ _ _ _ _ X).
Qed.

(** The first time a name is asked for, the configuration meant for the entity is found, whatever was asked before. *)
Theorem C221_first : forall P t m l m' e, make_model P t = Some m -> asked P m l = Some m' ->
  (forall o, In o l -> entity_name o <> entity_name e) -> readable P e ->
  exists r m1, config_for P m' e = Some (r, m1) /\ answer P t e r.
Proof.
  intros P t m l m' e M A N R. destruct (asked_same P l m m' A) as [T C].
  assert (K : assoc (entity_name e) (known m') = None).
  { assert (K0 : assoc (entity_name e) (known m) = None).
    { unfold make_model in M. destruct (make_all P t (available P t "v1")); [injection M as <-; reflexivity | discriminate]. }
    clear M T C. revert m K0 A. induction l as [|o l IH]; intros m K0 A; cbn [asked] in A.
    - injection A as <-. exact K0.
    - destruct (config_for P m o) as [[r m1]|] eqn:Q; [|discriminate].
      apply (IH (fun x I => N x (or_intror I)) m1); [|exact A].
      pose proof (N o (or_introl eq_refl)) as NO. apply String.eqb_neq in NO.
      unfold config_for in Q. destruct (assoc (entity_name o) (known m)); [injection Q as _ <-; exact K0|].
      destruct (find_matching P o "v1" (topic m)) as [n|]; [|discriminate].
      destruct (empty n); [|destruct (assoc n (configs m)); [|discriminate]]; injection Q as _ <-; cbn [known assoc];
        rewrite NO; exact K0. }
  destruct (answered P t m m' e M T C R K) as [r [X Y]]. exists r. eexists. split; [exact X | exact Y].
Qed.

(** However often entities are asked for, no exception is thrown. *)
Theorem C221_total : forall P t m l, make_model P t = Some m -> (forall e, In e l -> readable P e) ->
  exists m', asked P m l = Some m'.
Proof.
  intros P t m0 l M. assert (G : forall m, topic m = topic m0 -> configs m = configs m0 -> (forall e, In e l -> readable P e) ->
    exists m', asked P m l = Some m').
  { induction l as [|e l IH]; intros m T C R; [exists m; reflexivity|]. cbn [asked].
    destruct (assoc (entity_name e) (known m)) as [r|] eqn:K.
    - assert (Q : config_for P m e = Some (r, m)) by (unfold config_for; rewrite K; reflexivity).
      rewrite Q. apply IH; [exact T | exact C | intros x I; apply R; right; exact I].
    - destruct (answered P t m0 m e M T C (R e (or_introl eq_refl)) K) as [r [X _]]. rewrite X.
      apply IH; [exact T | exact C | intros x I; apply R; right; exact I]. }
  apply G; reflexivity.
Qed.

(** The answer of the first time is kept. *)
Theorem C221_kept : forall P m e r m', config_for P m e = Some (r, m') ->
  forall l m'' e', asked P m' l = Some m'' -> entity_name e' = entity_name e -> config_for P m'' e' = Some (r, m'').
Proof.
  intros P m e r m' Q l m'' e' A N.
  assert (K : assoc (entity_name e) (known m') = Some r).
  { unfold config_for in Q. destruct (assoc (entity_name e) (known m)) as [x|] eqn:K; [injection Q as <- <-; exact K|].
    destruct (find_matching P e "v1" (topic m)) as [n|]; [|discriminate].
    destruct (empty n); [|destruct (assoc n (configs m)); [|discriminate]]; injection Q as <- <-; cbn [known assoc];
      rewrite String.eqb_refl; reflexivity. }
  clear Q. revert m' K A. induction l as [|o l IH]; intros m' K A; cbn [asked] in A.
  - injection A as <-. unfold config_for. rewrite N, K. reflexivity.
  - destruct (config_for P m' o) as [[x m1]|] eqn:Q; [|discriminate]. apply (IH m1); [|exact A].
    unfold config_for in Q. destruct (assoc (entity_name o) (known m')) eqn:KO; [injection Q as _ <-; exact K|].
    assert (NO : String.eqb (entity_name o) (entity_name e) = false)
      by (apply String.eqb_neq; intro E; rewrite E in KO; congruence).
    destruct (find_matching P o "v1" (topic m')) as [n|]; [|discriminate].
    destruct (empty n); [|destruct (assoc n (configs m')); [|discriminate]]; injection Q as _ <-; cbn [known assoc];
      rewrite NO; exact K.
Qed.

(** Parameters with one configuration, for vehicles. *)
Definition for_vehicles (rate_ : R) : Parameters :=
  parameters ["/cloud.noise.v1.cars.ellipse_y_radii"%string]
    (fun n => if String.eqb n "/cloud.noise.v1.cars.noise_application_entities.types" then ["VEHICLE"%string] else ["*"%string])
    (fun n => if String.eqb n "/cloud.noise.v1.cars.ellipse_y_radii" then [100]
              else if String.eqb n "/cloud.noise.v1.cars.true_positive.rate.values" then [rate_] else [0])
    (fun _ => 1).
Definition cars (rate_ : R) : Config := config 1 [make_bin (100 * 100) 0 0 0 0 rate_].
Lemma for_vehicles_model : forall q, make_model (for_vehicles q) "/cloud" = Some (model "/cloud" [("cars"%string, cars q)] []).
Proof. intro q. reflexivity. Qed.
Lemma all_readable : forall q n t s x y, one_line n -> one_line t -> one_line s -> readable (for_vehicles q) (entity n t s x y).
Proof.
  intros q n t s x y A B C. split; [|repeat split; assumption || (apply A || apply B || apply C)].
  intros a p I c W X. cbn [strings for_vehicles] in I.
  destruct (String.eqb a "/cloud.noise.v1.cars.noise_application_entities.types"); destruct I as [<-|[]];
    cbn in W, X; intuition congruence.
Qed.

(** Refuted: an entity gets the noise meant for it (a pedestrian under the name of a vehicle gets that of vehicles). *)
Theorem C221_renamed_refuted : exists P m m' vehicle pedestrian r,
  make_model P "/cloud" = Some m /\ asked P m [vehicle] = Some m' /\ readable P pedestrian /\
  config_for P m' pedestrian = Some (r, m') /\ ~ answer P "/cloud" pedestrian r.
Proof.
  set (v := entity "npc" "VEHICLE" "CAR" 0 0). set (w := entity "npc" "PEDESTRIAN" "" 0 0).
  exists (for_vehicles 1), (model "/cloud" [("cars"%string, cars 1)] []),
    (model "/cloud" [("cars"%string, cars 1)] [("npc"%string, Some (cars 1))]), v, w, (Some (cars 1)).
  split; [apply for_vehicles_model|]. split; [reflexivity|]. split.
  { apply all_readable; split; cbn; intuition congruence. }
  split; [reflexivity|]. intros [n [F _]]. pose proof (first_there _ _ _ _ _ F) as T.
  apply available_spec in T. cbn in T. destruct T as [<-|[]].
  destruct F as [_ [_ [_ [_ [_ [[[p [I F]] _] _]]]]]]. cbn in I. destruct I as [<-|[]]. cbn in F.
  inversion F.
Qed.

(** ** C222 *)
Lemma nth_combine_seq : forall A (l : list A) s k e, In (k, e) (combine (seq s (List.length l)) l) <->
  (s <= k)%nat /\ nth_error l (k - s) = Some e.
Proof.
  intros A l. induction l as [|a l IH]; intros s k e; cbn.
  - split; [intros [] | intros [_ X]; destruct (k - s)%nat; discriminate].
  - rewrite IH. split.
    + intros [X|[I X]].
      * injection X as <- <-. split; [lia|]. rewrite Nat.sub_diag. reflexivity.
      * split; [lia|]. replace (k - s)%nat with (S (k - S s)) by lia. exact X.
    + intros [I X]. destruct (Nat.eq_dec k s) as [->|N].
      * left. rewrite Nat.sub_diag in X. injection X as ->. reflexivity.
      * right. split; [lia|]. replace (k - s)%nat with (S (k - S s)) in X by lia. exact X.
Qed.
Lemma map_fst_combine : forall A (l : list A) s, map fst (combine (seq s (List.length l)) l) = seq s (List.length l).
Proof. intros A l. induction l as [|a l IH]; intro s; cbn; [reflexivity | rewrite IH; reflexivity]. Qed.
Lemma map_snd_combine : forall A B (f : A -> B) (l : list A) s,
  map (fun ke => f (snd ke)) (combine (seq s (List.length l)) l) = map f l.
Proof. intros A B f l. induction l as [|a l IH]; intro s; cbn; [reflexivity | rewrite IH; reflexivity]. Qed.

Theorem C222_cloud : forall P D m ego_x ego_y cloud owners entities k cloud' m' k',
  apply_noise P D m ego_x ego_y cloud owners entities k = Some (cloud', m', k') ->
  List.length owners = List.length cloud -> NoDup (map entity_name entities) ->
  exists fates, List.length fates = List.length cloud /\ cloud' = left_over fates /\
    forall i p o, nth_error cloud i = Some p -> nth_error owners i = Some o ->
      exists f, nth_error fates i = Some f /\ point_fate P D m ego_x ego_y entities o p f.
Proof.
  intros P D m ex ey cloud owners entities k cloud' m' k' A L N. unfold apply_noise in A. rewrite L, Nat.eqb_refl in A.
  cbn [negb] in A. rewrite orb_false_r in A. destruct (List.length cloud =? 0)%nat eqn:Z.
  { injection A as <- _ _. apply Nat.eqb_eq in Z. destruct cloud; [|discriminate]. exists [].
    split; [reflexivity|]. split; [reflexivity|]. intros [|i] p o X; discriminate. }
  set (marks0 := map (fun o => (List.length entities <=? o)%nat) owners) in A.
  set (l := combine (seq 0 (List.length entities)) entities) in A.
  destruct (noise_entities P D ex ey owners (m, state cloud marks0 k) l) as [[m1 s]|] eqn:E; [|discriminate].
  injection A as <- _ _.
  assert (KI : forall o, In o (map fst l) <-> (o < List.length entities)%nat).
  { intro o. unfold l. rewrite map_fst_combine, in_seq. lia. }
  destruct (entities_fold P D ex ey owners l m (state cloud marks0 k) m1 s E) as [L1 [L2 [O F]]].
  { unfold l. rewrite map_fst_combine. apply seq_NoDup. }
  { unfold l. rewrite (map_snd_combine _ _ entity_name). exact N. }
  { cbn [marks spots]. unfold marks0. rewrite map_length. exact L. }
  { exact L. }
  { intros i o Q I. apply KI in I. cbn [marks]. unfold marks0. rewrite nth_error_map, Q. cbn.
    f_equal. apply Nat.leb_gt. exact I. }
  cbn [spots marks] in *.
  exists (map (outcome s) (seq 0 (List.length (spots s)))). rewrite map_length, seq_length.
  split; [exact L2|]. split; [apply remove_marked_outcomes, L1|].
  intros i p o Q R. exists (outcome s i). split.
  { assert (I : (i < List.length (spots s))%nat) by (rewrite L2; apply nth_error_Some; congruence).
    rewrite nth_error_map, (nth_error_nth' _ 0%nat) by (rewrite seq_length; exact I).
    rewrite seq_nth by exact I. reflexivity. }
  unfold point_fate. destruct (nth_error entities o) as [e|] eqn:NE.
  - apply (F i o e p); [|exact R | exact Q]. unfold l. apply nth_combine_seq. rewrite Nat.sub_0_r. split; [lia | exact NE].
  - apply nth_error_None in NE. destruct (O i o R) as [M _]; [rewrite KI; lia|].
    unfold outcome. rewrite M. unfold marks0. rewrite nth_error_map, R. cbn.
    replace (List.length entities <=? o)%nat with true by (symmetry; apply Nat.leb_le; lia). reflexivity.
Qed.

(** A cloud whose points are not all attributed is left alone. *)
Theorem C222_unattributed : forall P D m ego_x ego_y cloud owners entities k,
  List.length owners <> List.length cloud ->
  apply_noise P D m ego_x ego_y cloud owners entities k = Some (cloud, m, k).
Proof.
  intros. unfold apply_noise. apply Nat.eqb_neq in H. rewrite H. cbn [negb]. rewrite orb_true_r. reflexivity.
Qed.

Lemma displace_none : forall p, displace p 0 0 = p.
Proof. intros [x y z]. unfold displace. cbn [at_x at_y at_z]. f_equal; ring. Qed.

(** Values that stand for no noise change no point. *)
Theorem C222_no_noise : forall P D m ego_x ego_y cloud owners entities k cloud' m' k',
  (forall k, yes D k 1 = true) -> (forall k, normal D k 0 0 = 0) ->
  apply_noise P D m ego_x ego_y cloud owners entities k = Some (cloud', m', k') ->
  NoDup (map entity_name entities) -> (forall o, In o owners -> (o < List.length entities)%nat) ->
  (forall e r m1 c b, In e entities -> config_for P m e = Some (r, m1) -> r = Some c -> In b (bins c) ->
     rate b = 1 /\ radial_mean b = 0 /\ radial_sd b = 0 /\ tangential_mean b = 0 /\ tangential_sd b = 0) ->
  cloud' = cloud.
Proof.
  intros P D m ex ey cloud owners entities k cloud' m' k' Y0 N0 A N V H.
  destruct (Nat.eq_dec (List.length owners) (List.length cloud)) as [L|L].
  2:{ rewrite C222_unattributed in A by exact L. injection A as <- _ _. reflexivity. }
  destruct (C222_cloud _ _ _ _ _ _ _ _ _ _ _ _ A L N) as [fates [LF [-> F]]].
  assert (G : forall (fs : list (option Spot)) (ps : list Spot), List.length fs = List.length ps ->
    (forall i p, nth_error ps i = Some p -> nth_error fs i = Some (Some p)) -> left_over fs = ps).
  { induction fs as [|f fs IH]; intros [|p ps] LL X; cbn in LL; try discriminate; [reflexivity|].
    pose proof (X 0%nat p eq_refl) as X0. cbn in X0. injection X0 as ->. cbn [left_over]. f_equal.
    apply IH; [lia|]. intros i q Q. exact (X (S i) q Q). }
  apply G; [exact LF|]. intros i p Q.
  assert (I : (i < List.length owners)%nat) by (rewrite L; apply nth_error_Some; congruence).
  destruct (nth_error owners i) as [o|] eqn:O; [|apply nth_error_None in O; lia].
  destruct (F i p o Q O) as [f [X T]]. rewrite X. f_equal. unfold point_fate in T.
  apply nth_error_In in O. specialize (V o O).
  destruct (nth_error entities o) as [e|] eqn:NE; [|apply nth_error_None in NE; lia].
  destruct T as [[c|] [m1 [C T]]]; [|exact T]. destruct T as [b [B T]].
  assert (BI : In b (bins c)).
  { unfold get_bin in B. destruct (find _ (bins c)) as [x|] eqn:FD.
    - injection B as <-. apply find_some in FD. apply FD.
    - destruct (rev (bins c)) as [|x r] eqn:RV; [discriminate|]. injection B as <-. apply in_rev. rewrite RV. left. reflexivity. }
  destruct (H e (Some c) m1 c b (nth_error_In _ _ NE) C eq_refl BI) as [R1 [R2 [R3 [R4 R5]]]].
  destruct T as [[_ [q Y]]|[q [i1 [j1 [_ ->]]]]].
  - rewrite R1, Y0 in Y. discriminate.
  - rewrite R2, R3, R4, R5, !N0, displace_none. reflexivity.
Qed.

Example C222_no_noise_case : exists P D m e cloud, make_model P "/cloud" = Some m /\ readable P e /\
  (forall k, yes D k 1 = true) /\ (forall k, normal D k 0 0 = 0) /\ (exists m1, config_for P m e = Some (Some (cars 1), m1)) /\
  List.length cloud = 2%nat /\
  exists m' k', apply_noise P D m 0 0 cloud [0%nat; 0%nat] [e] 0 = Some (cloud, m', k').
Proof.
  exists (for_vehicles 1), (draws (fun _ _ => true) (fun _ _ _ => 0)), (model "/cloud" [("cars"%string, cars 1)] []),
    (entity "npc" "VEHICLE" "CAR" 10 0), [spot 10 0 0; spot 10 1 0].
  split; [apply for_vehicles_model|]. split; [apply all_readable; split; cbn; intuition congruence|].
  split; [reflexivity|]. split; [reflexivity|].
  assert (C : config_for (for_vehicles 1) (model "/cloud" [("cars"%string, cars 1)] []) (entity "npc" "VEHICLE" "CAR" 10 0) =
    Some (Some (cars 1), model "/cloud" [("cars"%string, cars 1)] [("npc"%string, Some (cars 1))])) by reflexivity.
  split; [eexists; exact C|]. split; [reflexivity|].
  do 2 eexists. unfold apply_noise. cbn [List.length Nat.eqb negb orb seq combine noise_entities].
  unfold noise_entity. change (points_of [0%nat; 0%nat] 0) with [0%nat; 1%nat]. cbv iota. rewrite C.
  assert (B : forall x y, get_bin (cars 1) x y = Some (make_bin (100 * 100) 0 0 0 0 1)).
  { intros x y. unfold get_bin, cars. cbn [bins find rev app]. destruct (Rltb _ _); reflexivity. }
  rewrite B. cbn [fold_left noise_point yes negb engine spots nth_error set_nth marks map remove_marked normal
    radial_mean radial_sd tangential_mean tangential_sd make_bin List.length Nat.leb].
  rewrite !displace_none. reflexivity.
Qed.

(** Refuted: an entity that is reported as detected has a point in the cloud. *)
Theorem C222_detected_refuted : exists P D m e,
  make_model P "/cloud" = Some m /\ readable P e /\ yes D 0 0 = false /\
  raycast P D m 0 0 [spot 10 0 0] [0%nat] [e] 0 = Some ([], [entity_name e]).
Proof.
  exists (for_vehicles 0), (draws (fun _ _ => false) (fun _ _ _ => 0)), (model "/cloud" [("cars"%string, cars 0)] []),
    (entity "npc" "VEHICLE" "CAR" 10 0).
  split; [apply for_vehicles_model|]. split; [apply all_readable; split; cbn; intuition congruence|].
  split; [reflexivity|].
  assert (C : config_for (for_vehicles 0) (model "/cloud" [("cars"%string, cars 0)] []) (entity "npc" "VEHICLE" "CAR" 10 0) =
    Some (Some (cars 0), model "/cloud" [("cars"%string, cars 0)] [("npc"%string, Some (cars 0))])) by reflexivity.
  unfold raycast, apply_noise. cbn [List.length Nat.eqb negb orb seq combine noise_entities].
  unfold noise_entity. change (points_of [0%nat] 0) with [0%nat]. cbv iota. rewrite C.
  assert (B : forall x y, get_bin (cars 0) x y = Some (make_bin (100 * 100) 0 0 0 0 0)).
  { intros x y. unfold get_bin, cars. cbn [bins find rev app]. destruct (Rltb _ _); reflexivity. }
  rewrite B. cbn. reflexivity.
Qed.

(** ** C223 *)
Lemma make_bins_nth : forall radii rm rs tm ts tp l, make_bins radii rm rs tm ts tp = Some l ->
  List.length l = List.length radii /\
  forall i b, nth_error l i = Some b -> exists r,
    nth_error radii i = Some r /\ radius_squared b = (r * r) * (r * r) /\ nth_error rm i = Some (radial_mean b) /\
    nth_error rs i = Some (radial_sd b) /\ nth_error tm i = Some (tangential_mean b) /\
    nth_error ts i = Some (tangential_sd b) /\ nth_error tp i = Some (rate b).
Proof.
  induction radii as [|r radii IH]; intros rm rs tm ts tp l E; cbn [make_bins] in E.
  - injection E as <-. split; [reflexivity|]. intros [|i] b X; discriminate.
  - destruct rm as [|a rm], rs as [|b rs], tm as [|c tm], ts as [|d ts], tp as [|e tp]; try discriminate.
    destruct (make_bins radii rm rs tm ts tp) as [l'|] eqn:M; [|discriminate]. injection E as <-.
    destruct (IH _ _ _ _ _ _ M) as [L F]. split; [cbn; rewrite L; reflexivity|].
    intros [|i] x X; [injection X as <-; exists r; repeat split; reflexivity|]. exact (F i x X).
Qed.

Lemma away_squared : forall ratio x y r, 0 <= r ->
  (away ratio x y < r <-> (x / ratio) * (x / ratio) + y * y < r * r).
Proof.
  intros ratio x y r H. unfold away. set (s := (x / ratio) * (x / ratio) + y * y).
  assert (S : 0 <= s) by (unfold s; pose proof (Rle_0_sqr (x / ratio)); pose proof (Rle_0_sqr y); unfold Rsqr in *; lra).
  split; intro X.
  - pose proof (sqrt_pos s). pose proof (sqrt_sqrt s S) as Q. nra.
  - rewrite <- (sqrt_square r H). apply sqrt_lt_1_alt. split; assumption.
Qed.

Lemma find_nth : forall A (f : A -> bool) l b, find f l = Some b ->
  exists i, nth_error l i = Some b /\ f b = true /\ forall j c, (j < i)%nat -> nth_error l j = Some c -> f c = false.
Proof.
  intros A f l. induction l as [|a l IH]; intros b E; [discriminate|]. cbn in E. destruct (f a) eqn:F.
  - injection E as <-. exists 0%nat. split; [reflexivity|]. split; [exact F|]. intros; lia.
  - destruct (IH b E) as [i [N [Q O]]]. exists (S i). split; [exact N|]. split; [exact Q|].
    intros [|j] c J X; [injection X as <-; exact F|]. apply (O j c); [lia | exact X].
Qed.

(** The values used are those of the first radius whose square is greater than the distance, or the last. *)
Theorem C223_ring : forall radii rm rs tm ts tp ratio l x y b,
  make_bins radii rm rs tm ts tp = Some l -> get_bin (config ratio l) x y = Some b ->
  exists i, nth_error rm i = Some (radial_mean b) /\ nth_error rs i = Some (radial_sd b) /\
    nth_error tm i = Some (tangential_mean b) /\ nth_error ts i = Some (tangential_sd b) /\ nth_error tp i = Some (rate b) /\
    (inside_first (map (fun r => r * r) radii) ratio x y i \/
     (S i = List.length radii /\ forall r, In r radii -> ~ away ratio x y < r * r)).
Proof.
  intros radii rm rs tm ts tp ratio l x y b M G. destruct (make_bins_nth _ _ _ _ _ _ _ M) as [L F].
  unfold get_bin in G. cbn [x_radius bins] in G.
  assert (LT : forall r, Rltb ((x / ratio) * (x / ratio) + y * y) ((r * r) * (r * r)) = true <-> away ratio x y < r * r).
  { intro r. rewrite away_squared by (apply Rle_0_sqr). unfold Rltb. destruct (Rlt_dec _ _); split; congruence || tauto. }
  destruct (find _ l) as [b'|] eqn:E.
  - injection G as <-. destruct (find_nth _ _ _ _ E) as [i [N [Q O]]]. destruct (F i b' N) as [r [R0 [R1 [R2 [R3 [R4 [R5 R6]]]]]]].
    exists i. repeat split; try assumption. left. split.
    + exists (r * r). split; [rewrite nth_error_map, R0; reflexivity|]. apply LT. rewrite <- R1. exact Q.
    + intros j q J X. rewrite nth_error_map in X. destruct (nth_error radii j) as [r'|] eqn:RJ; [|discriminate].
      injection X as <-. intro Y.
      destruct (nth_error l j) as [c|] eqn:NJ; [|apply nth_error_None in NJ; rewrite L in NJ; apply nth_error_None in NJ; congruence].
      destruct (F j c NJ) as [r'' [S0 [S1 _]]]. rewrite RJ in S0. injection S0 as <-.
      apply LT in Y. rewrite <- S1 in Y. rewrite (O j c J NJ) in Y. discriminate.
  - destruct (rev l) as [|b' rest] eqn:RV; [discriminate|]. injection G as <-.
    assert (EL : l = (rev rest ++ [b'])%list) by (rewrite <- (rev_involutive l), RV; reflexivity).
    assert (N : nth_error l (List.length rest) = Some b').
    { rewrite EL, nth_error_app2; rewrite rev_length; [rewrite Nat.sub_diag; reflexivity | lia]. }
    destruct (F _ b' N) as [r [R0 [R1 [R2 [R3 [R4 [R5 R6]]]]]]].
    exists (List.length rest). repeat split; try assumption. right. split.
    + rewrite <- L, EL, app_length, rev_length. cbn. lia.
    + intros q I Y. apply In_nth_error in I as [j J].
      destruct (nth_error l j) as [c|] eqn:NJ; [|apply nth_error_None in NJ; rewrite L in NJ; apply nth_error_None in NJ; congruence].
      destruct (F j c NJ) as [r'' [S0 [S1 _]]]. rewrite J in S0. injection S0 as <-. apply LT in Y. rewrite <- S1 in Y.
      pose proof (find_none _ _ E c (nth_error_In _ _ NJ)) as Z. cbn beta in Z. congruence.
Qed.

(** Refuted: the values used are those of the ring the entity is in (at 50 m, with rings of 10, 60 and 1000 m, those of
    the first are used: the square of the radius is compared where the radius should be). *)
Theorem C223_squared_refuted : exists radii values ratio l b x y,
  make_bins radii values values values values values = Some l /\ get_bin (config ratio l) x y = Some b /\
  inside_first radii ratio x y 1 /\ nth_error values 1 <> Some (rate b).
Proof.
  exists [10; 60; 1000], [1/2; 1/4; 1/8], 1,
    [make_bin (10 * 10) (1/2) (1/2) (1/2) (1/2) (1/2); make_bin (60 * 60) (1/4) (1/4) (1/4) (1/4) (1/4);
     make_bin (1000 * 1000) (1/8) (1/8) (1/8) (1/8) (1/8)],
    (make_bin (10 * 10) (1/2) (1/2) (1/2) (1/2) (1/2)), 0, 50.
  split; [reflexivity|]. split.
  { unfold get_bin. cbn [bins x_radius find radius_squared make_bin]. unfold Rltb.
    destruct (Rlt_dec _ _) as [_|N]; [reflexivity|]. exfalso. apply N. lra. }
  split; [split|].
  - exists 60. split; [reflexivity|]. apply away_squared; [lra|]. lra.
  - intros [|j] r J X; [|lia]. injection X as <-. rewrite away_squared by lra. lra.
  - cbn [nth_error]. intro X. injection X as X. cbn [rate make_bin] in X. lra.
Qed.

(** The values can be read exactly if there is one of each kind for each radius; there is no check. *)
Theorem C223_lengths : forall radii rm rs tm ts tp,
  make_bins radii rm rs tm ts tp = None <->
  exists values, In values [rm; rs; tm; ts; tp] /\ (List.length values < List.length radii)%nat.
Proof.
  induction radii as [|r radii IH]; intros rm rs tm ts tp.
  - cbn. split; [discriminate|]. intros [v [_ H]]. lia.
  - cbn [make_bins]. split.
    + destruct rm as [|a rm]; [intros _; exists []; cbn; split; [tauto | lia]|].
      destruct rs as [|b rs]; [intros _; exists []; cbn; split; [tauto | lia]|].
      destruct tm as [|c tm]; [intros _; exists []; cbn; split; [tauto | lia]|].
      destruct ts as [|d ts]; [intros _; exists []; cbn; split; [tauto | lia]|].
      destruct tp as [|e tp]; [intros _; exists []; cbn; split; [tauto | lia]|].
      destruct (make_bins radii rm rs tm ts tp) as [l|] eqn:M; [discriminate|]. intros _.
      destruct (proj1 (IH rm rs tm ts tp) M) as [v [I H]]. cbn in I.
      destruct I as [<-|[<-|[<-|[<-|[<-|[]]]]]];
        [exists (a :: rm) | exists (b :: rs) | exists (c :: tm) | exists (d :: ts) | exists (e :: tp)];
        (split; [cbn; tauto | cbn [List.length]; lia]).
    + intros [v [I H]].
      destruct rm as [|a rm], rs as [|b rs], tm as [|c tm], ts as [|d ts], tp as [|e tp]; try reflexivity.
      destruct (make_bins radii rm rs tm ts tp) as [l|] eqn:M; [exfalso|reflexivity].
      assert (X : make_bins radii rm rs tm ts tp = None).
      { apply IH. destruct I as [<-|[<-|[<-|[<-|[<-|[]]]]]]; cbn [List.length] in H;
          [exists rm | exists rs | exists tm | exists ts | exists tp]; (split; [cbn; tauto | lia]). }
      congruence.
Qed.

Lemma append_inj : forall a b c : string, (a ++ b)%string = (a ++ c)%string -> b = c.
Proof. induction a as [|x a IH]; intros b c E; cbn in E; [exact E|]. injection E as E. exact (IH b c E). Qed.

(** Refuted: each kind of value has ellipses of its own (only the ratio given for the rate is used). *)
Theorem C223_ratio_refuted : forall P t name what q, In what
    ["distance.radial.mean"; "distance.radial.standard_deviation"; "distance.tangential.mean"; "distance.tangential.standard_deviation"]%string ->
  make_config
    (parameters (listed P) (strings P) (numbers P)
       (fun n => if String.eqb n (t ++ ".noise.v1." ++ name ++ "." ++ what ++ ".ellipse_normalized_x_radius") then q else number P n))
    t name = make_config P t name.
Proof.
  intros P t name what q I. unfold make_config. cbn [numbers number].
  match goal with |- context [String.eqb ?a ?b] => assert (E : String.eqb a b = false) end.
  { apply String.eqb_neq. rewrite !app_assoc_s. intro X. apply append_inj, append_inj, append_inj, append_inj in X.
    destruct I as [<-|[<-|[<-|[<-|[]]]]]; discriminate. }
  rewrite E. reflexivity.
Qed.

(** ** C224 *)
Lemma range_squared : forall p, range p * range p = dot p p.
Proof.
  intros p. unfold range, dot. apply sqrt_sqrt.
  pose proof (Rle_0_sqr (at_x p)). pose proof (Rle_0_sqr (at_y p)). pose proof (Rle_0_sqr (at_z p)). unfold Rsqr in *. lra.
Qed.

(** The radial deviate is the change along the line of sight; without a tangential one the direction is kept. *)
Theorem C224_radial : forall p radial tangential, range p <> 0 ->
  dot p (difference (displace p radial tangential) p) = radial * range p /\
  displace p radial 0 = scaled ((range p + radial) / range p) p.
Proof.
  intros p a b N. pose proof (range_squared p) as Q. unfold displace. set (d := range p) in *. split.
  - transitivity (a * (dot p p) / d).
    + unfold dot, difference. cbn [at_x at_y at_z]. field. exact N.
    + rewrite <- Q. field. exact N.
  - unfold scaled. f_equal; field; exact N.
Qed.

(** The tangential deviate moves the point horizontally and across the line of sight, to the right. *)
Theorem C224_tangential : forall p radial tangential, range p <> 0 ->
  difference (displace p radial tangential) (displace p radial 0) =
    spot (tangential * (at_y p / range p)) (tangential * - (at_x p / range p)) 0.
Proof. intros p a b N. unfold difference, displace. cbn [at_x at_y at_z]. f_equal; ring. Qed.
Theorem C224_across : forall p radial tangential, range p <> 0 ->
  dot p (difference (displace p radial tangential) (displace p radial 0)) = 0 /\
  range (difference (displace p radial tangential) (displace p radial 0)) = Rabs tangential * (ground_range p / range p).
Proof.
  intros p a b N. rewrite C224_tangential by exact N. split.
  - unfold dot. cbn [at_x at_y at_z]. field. exact N.
  - assert (P : 0 < range p) by (pose proof (sqrt_pos (at_x p * at_x p + at_y p * at_y p + at_z p * at_z p)); unfold range in *; lra).
    unfold range at 1. cbn [at_x at_y at_z]. unfold ground_range.
    set (d := range p) in *.
    replace (b * (at_y p / d) * (b * (at_y p / d)) + b * - (at_x p / d) * (b * - (at_x p / d)) + 0 * 0)
      with (Rsqr (b / d) * (at_x p * at_x p + at_y p * at_y p)) by (unfold Rsqr; field; exact N).
    rewrite sqrt_mult.
    + rewrite sqrt_Rsqr_abs. unfold Rdiv at 1. rewrite Rabs_mult, (Rabs_pos_eq (/ d)) by (left; apply Rinv_0_lt_compat, P).
      field. exact N.
    + apply Rle_0_sqr.
    + pose proof (Rle_0_sqr (at_x p)). pose proof (Rle_0_sqr (at_y p)). unfold Rsqr in *. lra.
Qed.

(** Refuted: the point is moved across the line of sight by the deviate drawn (above or below the sensor by less). *)
Theorem C224_amount_refuted : exists p tangential, range p <> 0 /\
  range (difference (displace p 0 tangential) p) <> Rabs tangential.
Proof.
  assert (R5 : range (spot 3 0 4) = 5).
  { unfold range. cbn [at_x at_y at_z]. replace (3 * 3 + 0 * 0 + 4 * 4) with (5 * 5) by ring. apply sqrt_square. lra. }
  exists (spot 3 0 4), 1. split; [rewrite R5; lra|].
  rewrite <- (displace_none (spot 3 0 4)) at 2. destruct (C224_across (spot 3 0 4) 0 1) as [_ E]; [rewrite R5; lra|].
  rewrite E, R5. unfold ground_range. cbn [at_x at_y]. replace (3 * 3 + 0 * 0) with (3 * 3) by ring. rewrite sqrt_square by lra.
  rewrite Rabs_R1. lra.
Qed.
