(** * Theorems about what is published about traffic lights (C167-C171). *)
From Coq Require Import Ascii String List Bool Arith ZArith Lia.
From Verif Require Import M_TrafficLight M_Publish S_Publish P_Publish.
Import ListNotations.
Local Open Scope list_scope.
Local Open Scope Z_scope.

(** ** C167: a published bulb is the bulb of the light. *)

Theorem C167_bulb : forall b confidence, ~ upper_arrow (b_shape b) ->
  says (to_message (to_wire confidence b)) b confidence.
Proof.
  intros b c N. pose proof (says_told c b) as S.
  replace (told b) with b in S; [exact S|]. destruct b as [co st sh]. unfold told. cbn.
  unfold upper_arrow in N. cbn in N. destruct sh; try reflexivity; destruct N; auto.
Qed.

(** The arrows up and to a side are published with an unknown shape. *)
Theorem C167_upper_arrows : forall b confidence, upper_arrow (b_shape b) ->
  says (to_message (to_wire confidence b))
       {| b_color := b_color b; b_status := b_status b; b_shape := UnknownShape |} confidence.
Proof.
  intros b c N. pose proof (says_told c b) as S. unfold told in S.
  destruct N as [N|N]; rewrite N in S; exact S.
Qed.
Definition C167_bulb_claim : Prop := forall b confidence,
  says (to_message (to_wire confidence b)) b confidence.
Theorem C167_shape_refuted : ~ C167_bulb_claim.
Proof.
  intros C. destruct (C {| b_color := Green; b_status := SolidOn; b_shape := UpperLeft |} 1)
    as (_ & S & _). discriminate.
Qed.
(** The direct conversion to the older message says every bulb as it is. *)
Theorem C167_direct : forall b confidence, says (to_message_directly confidence b) b confidence.
Proof. intros [[] [] []] c; repeat split. Qed.
(** A message says at most one bulb. *)
Theorem C167_readable : forall m b b' c c', says m b c -> says m b' c' -> b = b' /\ c = c'.
Proof.
  intros m [a1 a2 a3] [e1 e2 e3] c c' (A & B & C & D) (A' & B' & C' & D'). cbn in *. split; congruence.
Qed.
Example C167_example :
  says (to_message (to_wire 1 {| b_color := Yellow; b_status := Flashing; b_shape := LowerRight |}))
       {| b_color := Yellow; b_status := Flashing; b_shape := LowerRight |} 1 /\
  to_message (to_wire 1 {| b_color := Red; b_status := SolidOn; b_shape := Circle |}) =
  {| b_m_color := 1; b_m_shape := 1; b_m_status := 2; b_m_confidence := 1 |}.
Proof. split; [apply C167_bulb; intros [H|H]; discriminate|reflexivity]. Qed.

(** ** C168: which lights a message lists, and under which ids. *)

(** The older array: every light, in order, under its way. *)
Theorem C168_array : forall m, narrow_lights m ->
  Forall2 (fun x e => fst x = l_way (snd e) /\
                      tells (snd x) (l_bulbs (snd e)) (l_confidence (snd e)))
          (truth_message m) m.
Proof.
  induction 1 as [|[i l] m [N _] N' IH]; [constructor|]. cbn. constructor; [|exact IH]. cbn.
  split; [apply int32_narrow; exact N|]. apply tells_all.
Qed.
(** Groups: one for each relation of each light that has bulbs. *)
Theorem C168_groups : forall p m l r, narrow_lights m -> In l (map snd m) -> In r (l_relations l) ->
  l_bulbs l <> [] ->
  exists g, In g (groups p (request m)) /\ u_id g = r /\
            tells (u_elements g) (l_bulbs l) (l_confidence l).
Proof.
  intros p m l r N I J B. apply in_map_iff in I. destruct I as (e & <- & I).
  pose proof (narrow_in _ _ N I) as W.
  exists {| u_id := r; u_elements := map to_message (s_bulbs (light_signal (snd e)));
            u_predictions := group_predictions p (s_id (light_signal (snd e))) |}.
  split; [|split; [reflexivity|apply tells_all]].
  apply in_groups. exists (light_signal (snd e)).
  split; [apply in_request; exists e; auto|]. cbn [u_id u_elements u_predictions].
  rewrite signal_relations by exact W. split; [exact J|].
  split; [cbn; apply map_nonempty; exact B|]. split; reflexivity.
Qed.
Theorem C168_no_others : forall p m g, narrow_lights m -> In g (groups p (request m)) ->
  exists l, In l (map snd m) /\ In (u_id g) (l_relations l) /\ l_bulbs l <> [] /\
            tells (u_elements g) (l_bulbs l) (l_confidence l).
Proof.
  intros p m g N I. apply in_groups in I. destruct I as (s & I & J & B & E & _).
  apply in_request in I. destruct I as (e & I & ->). pose proof (narrow_in _ _ N I) as W.
  exists (snd e). split; [apply in_map; exact I|]. rewrite signal_relations in J by exact W.
  split; [exact J|]. cbn in B. apply map_nonempty in B. split; [exact B|]. rewrite E. apply tells_all.
Qed.
(** How many there are. *)
Theorem C168_count : forall p m,
  length (groups p (request m)) =
  list_sum (map (fun e => match l_bulbs (snd e) with [] => 0%nat | _ => length (l_relations (snd e)) end) m).
Proof.
  intros p m. unfold groups. induction m as [|[i l] m IH]; [reflexivity|].
  change (request ((i, l) :: m)) with (light_signal l :: request m).
  cbn [flat_map]. rewrite app_length, IH. cbn. f_equal. clear IH.
  destruct (l_bulbs l) as [|b bs]; cbn.
  - induction (l_relations l); [reflexivity|]. cbn. assumption.
  - induction (l_relations l) as [|r rs IHr]; [reflexivity|]. cbn. rewrite IHr. reflexivity.
Qed.
(** The older signal array lists the same. *)
Theorem C168_formats : forall p r,
  signals r = map (fun g => (u_id g, u_elements g)) (groups p r).
Proof.
  intros p r. unfold signals, groups. induction r as [|s r IH]; [reflexivity|].
  cbn [flat_map]. rewrite map_app, IH. f_equal.
  induction (s_relations s) as [|x xs IHx]; [reflexivity|]. cbn [flat_map]. rewrite map_app, <- IHx.
  destruct (s_bulbs s); reflexivity.
Qed.

(** Two lights of the same relation are published as two groups with one id, whatever they show. *)
Definition C168_one_group_claim : Prop := forall m, narrow_lights m ->
  NoDup (map (fun e => l_way (snd e)) m) -> (forall e, In e m -> NoDup (l_relations (snd e))) ->
  NoDup (map u_id (groups None (request m))).
Definition red_circle : bulb := {| b_color := Red; b_status := SolidOn; b_shape := Circle |}.
Definition green_circle : bulb := {| b_color := Green; b_status := SolidOn; b_shape := Circle |}.
Definition at_way (w : Z) (rs : list Z) (bs : list bulb) : Z * light :=
  (w, {| l_way := w; l_relations := rs; l_confidence := 1; l_bulbs := bs |}).
Ltac narrow := repeat constructor; unfold narrow; cbn; lia.
Theorem C168_one_group_refuted : ~ C168_one_group_claim.
Proof.
  intros C. specialize (C [at_way 11 [7] [red_circle]; at_way 12 [7] [green_circle]]).
  assert (N : NoDup [7; 7]).
  { apply C.
    - narrow.
    - cbn. repeat constructor; cbn; lia.
    - intros e [<-|[<-|[]]]; cbn; repeat constructor; cbn; tauto. }
  inversion N as [|x l I _]. cbn in I. tauto.
Qed.
(** A light that went dark is not in the groups at all: a receiver is not told. *)
Definition C168_dark_claim : Prop := forall m l r, narrow_lights m -> In l (map snd m) ->
  In r (l_relations l) -> exists g, In g (groups None (request m)) /\ u_id g = r.
Theorem C168_dark_refuted : ~ C168_dark_claim.
Proof.
  intros C. destruct (C [at_way 11 [7] []] (snd (at_way 11 [7] [])) 7) as (g & [] & _).
  - narrow.
  - left. reflexivity.
  - left. reflexivity.
Qed.
(** Ids of lanelet maps have 64 bits; those beyond 32 bits are published as others. *)
Definition C168_wide_claim : Prop := forall m l r, In l (map snd m) -> In r (l_relations l) ->
  l_bulbs l <> [] -> exists g, In g (groups None (request m)) /\ u_id g = r.
Theorem C168_wide_refuted : ~ C168_wide_claim.
Proof.
  intros C. destruct (C [at_way 11 [4294967303] [red_circle]]
                        (snd (at_way 11 [4294967303] [red_circle])) 4294967303) as (g & I & E).
  - left. reflexivity.
  - left. reflexivity.
  - discriminate.
  - vm_compute in I. destruct I as [<-|[]]. discriminate.
Qed.
Example C168_example :
  let m := [at_way 11 [7; 8] [red_circle; green_circle]; at_way 12 [9] []] in
  narrow_lights m /\ map u_id (groups None (request m)) = [7; 8] /\
  map fst (truth_message m) = [11; 12].
Proof. cbn. split; [narrow|]. split; reflexivity. Qed.

(** ** C169: predictions are published with the light they are for. *)

Lemma phases_of : forall p w l, NoDup (map fst p) -> predicted p w l ->
  phases p w = Some l \/ (phases p w = None /\ l = []).
Proof.
  induction p as [|[i x] p IH]; intros w l N [I|[-> I]].
  - destruct I.
  - right. split; reflexivity.
  - inversion N as [|a b N1 N2]; subst. cbn. destruct I as [E|I].
    + injection E as -> ->. rewrite Z.eqb_refl. left. reflexivity.
    + destruct (i =? w) eqn:E.
      * apply Z.eqb_eq in E. subst. destruct N1. change w with (fst (w, l)). apply in_map. exact I.
      * apply IH; [exact N2|]. left. exact I.
  - inversion N as [|a b N1 N2]; subst. cbn in *. destruct (i =? w) eqn:E.
    + apply Z.eqb_eq in E. tauto.
    + apply IH; [exact N2|]. right. tauto.
Qed.
Theorem C169_predictions : forall p m l r ph, narrow_lights m -> NoDup (map fst p) ->
  In l (map snd m) -> In r (l_relations l) -> l_bulbs l <> [] -> predicted p (l_way l) ph ->
  exists g, In g (v2i_message m [] p) /\ u_id g = r /\
            tells (u_elements g) (l_bulbs l) (l_confidence l) /\
            Forall2 tells_phase (u_predictions g) ph.
Proof.
  intros p m l r ph N U I J B P. apply in_map_iff in I. destruct I as (e & <- & I).
  pose proof (narrow_in _ _ N I) as W.
  exists {| u_id := r; u_elements := map to_message (s_bulbs (light_signal (snd e)));
            u_predictions := group_predictions (Some p) (s_id (light_signal (snd e))) |}.
  split; [|split; [reflexivity|split; [apply tells_all|]]].
  - unfold v2i_message. cbn [detect fold_left]. apply in_groups. exists (light_signal (snd e)).
    split; [apply in_request; exists e; auto|]. cbn [u_id u_elements u_predictions].
    rewrite signal_relations by exact W. split; [exact J|].
    split; [cbn; apply map_nonempty; exact B|]. split; reflexivity.
  - cbn [u_predictions]. rewrite signal_id by exact W. unfold group_predictions.
    destruct (phases_of p (l_way (snd e)) ph U P) as [E|[E ->]]; rewrite E; [|constructor].
    clear. induction ph as [|[t bs] ph IH]; constructor; [|exact IH].
    split; [reflexivity|apply tells_one].
Qed.
(** The detector of the sensor simulator publishes none. *)
Theorem C169_not_detected : forall k l msg g, In (Some msg) (snd (history k l)) -> In g msg ->
  u_predictions g = [].
Proof.
  intros k l. revert k. induction l as [|h l IH]; intros k msg g I J; [destruct I|].
  cbn [history] in I. destruct (happen k h) as [k' o] eqn:E. destruct (history k' l) as [k'' o'] eqn:F.
  cbn in I. apply in_app_or in I. destruct I as [I|I].
  - destruct h; cbn -[groups] in E; injection E as <- <-; try contradiction.
    destruct I as [I|[]]. destruct (k_detector k); [|discriminate]. injection I as <-.
    apply in_groups in J. destruct J as (s & _ & _ & _ & _ & P). exact P.
  - apply (IH k' msg g); [|exact J]. rewrite F. exact I.
Qed.
(** The predictions of a light that shows nothing are not published. *)
Definition C169_dark_claim : Prop := forall p m l r ph, narrow_lights m -> NoDup (map fst p) ->
  In l (map snd m) -> In r (l_relations l) -> predicted p (l_way l) ph -> ph <> [] ->
  exists g, In g (v2i_message m [] p) /\ u_id g = r /\ Forall2 tells_phase (u_predictions g) ph.
Theorem C169_dark_refuted : ~ C169_dark_claim.
Proof.
  intros C.
  destruct (C [(11, [(5, [red_circle])])] [at_way 11 [7] []] (snd (at_way 11 [7] [])) 7 [(5, [red_circle])])
    as (g & [] & _).
  - narrow.
  - cbn. repeat constructor. cbn. tauto.
  - left. reflexivity.
  - left. reflexivity.
  - left. left. reflexivity.
  - discriminate.
Qed.
Example C169_example :
  let p := [(11, add_prediction (add_prediction [] 1000000000 red_circle) 4000000000 green_circle)] in
  map u_predictions (v2i_message [at_way 11 [7] [green_circle]] [] p) =
  [[(1000000000, [to_message (to_wire 1 red_circle)]);
    (4000000000, [to_message (to_wire 1 green_circle)])]].
Proof. reflexivity. Qed.

(** ** C170: in every frame, the detector publishes the lights as they are in that frame, with the
    detected states over them. *)

Theorem C170_shown : forall k l li r,
  let m := lights_of (k_lights k) l in
  let d := detected_of (k_detected k) l in
  attached k l -> proper m d -> In li (map snd m) -> In r (l_relations li) ->
  fst (shown d li) <> [] ->
  exists msg g, last (snd (history k (l ++ [Frame]))) None = Some msg /\ In g msg /\ u_id g = r /\
                tells (u_elements g) (fst (shown d li)) (snd (shown d li)).
Proof.
  intros k l li r m d A P I J B. rewrite last_frame by exact A.
  exists (groups None (detect d (request m))).
  exists {| u_id := r; u_elements := map to_message (map (to_wire (snd (shown d li))) (fst (shown d li)));
            u_predictions := [] |}.
  split; [reflexivity|]. split; [|split; [reflexivity|apply tells_all]].
  apply in_groups.
  exists {| s_id := l_way li; s_relations := l_relations li;
            s_bulbs := map (to_wire (snd (shown d li))) (fst (shown d li)) |}.
  cbn. split; [|split; [exact J|split; [apply map_nonempty; exact B|split; reflexivity]]].
  apply in_detected; [exact P|]. exists li. split; [left; exact I|]. cbn.
  split; [|auto]. destruct P as (N & _). apply in_map_iff in I. destruct I as (e & <- & I).
  exact (narrow_in _ _ N I).
Qed.
Theorem C170_nothing_else : forall k l msg g,
  let m := lights_of (k_lights k) l in
  let d := detected_of (k_detected k) l in
  attached k l -> proper m d -> last (snd (history k (l ++ [Frame]))) None = Some msg -> In g msg ->
  exists li,
    (In li (map snd m) \/ (In li (map snd d) /\ ~ In (l_way li) (map (fun e => l_way (snd e)) m))) /\
    In (u_id g) (l_relations li) /\ fst (shown d li) <> [] /\
    tells (u_elements g) (fst (shown d li)) (snd (shown d li)).
Proof.
  intros k l msg g m d A P E I. rewrite last_frame in E by exact A. injection E as <-.
  apply in_groups in I. destruct I as (s & I & J & B & F & _).
  apply in_detected in I; [|exact P]. destruct I as (li & S & N & _ & R & Bs).
  exists li. split; [exact S|]. rewrite <- R. split; [exact J|].
  rewrite Bs in B, F. apply map_nonempty in B. split; [exact B|]. rewrite F. apply tells_all.
Qed.
(** The messages over V2I show the same: these lights, with the detected states over them. *)
Theorem C170_v2i : forall m d p li r, proper m d -> In li (map snd m) -> In r (l_relations li) ->
  fst (shown d li) <> [] ->
  exists g, In g (v2i_message m d p) /\ u_id g = r /\ tells (u_elements g) (fst (shown d li)) (snd (shown d li)).
Proof.
  intros m d p li r P I J B.
  exists {| u_id := r; u_elements := map to_message (map (to_wire (snd (shown d li))) (fst (shown d li)));
            u_predictions := group_predictions (Some p) (l_way li) |}.
  split; [|split; [reflexivity|apply tells_all]].
  apply in_groups.
  exists {| s_id := l_way li; s_relations := l_relations li;
            s_bulbs := map (to_wire (snd (shown d li))) (fst (shown d li)) |}.
  cbn [s_id s_relations s_bulbs u_id u_elements u_predictions].
  split; [|split; [exact J|split; [apply map_nonempty; exact B|split; reflexivity]]].
  apply in_detected; [exact P|]. exists li. split; [left; exact I|]. cbn.
  split; [|auto]. destruct P as (N & _). apply in_map_iff in I. destruct I as (e & <- & I).
  exact (narrow_in _ _ N I).
Qed.
Theorem C170_v2i_nothing_else : forall m d p g, proper m d -> In g (v2i_message m d p) ->
  exists li,
    (In li (map snd m) \/ (In li (map snd d) /\ ~ In (l_way li) (map (fun e => l_way (snd e)) m))) /\
    In (u_id g) (l_relations li) /\ fst (shown d li) <> [] /\
    tells (u_elements g) (fst (shown d li)) (snd (shown d li)).
Proof.
  intros m d p g P I. apply in_groups in I. destruct I as (s & I & J & B & F & _).
  apply in_detected in I; [|exact P]. destruct I as (li & S & N & _ & R & Bs).
  exists li. split; [exact S|]. rewrite <- R. split; [exact J|].
  rewrite Bs in B, F. apply map_nonempty in B. split; [exact B|]. rewrite F. apply tells_all.
Qed.
(** The older array is published without the detected states. *)
Theorem C170_truth : forall k l d,
  truth_message (k_lights (fst (history k (l ++ [Detected d])))) = 
  truth_message (k_lights (fst (history k l))).
Proof.
  intros k l d. rewrite history_app. destruct (history k l) as [k1 o1]. reflexivity.
Qed.
(** Without a detector nothing is published. *)
Theorem C170_no_detector : forall k l msg, k_detector k = false -> ~ In Attach l ->
  ~ In (Some msg) (snd (history k l)).
Proof.
  intros k l. revert k. induction l as [|h l IH]; intros k msg D A I; [destruct I|].
  cbn [history] in I. destruct (happen k h) as [k' o] eqn:E. destruct (history k' l) as [k'' o'] eqn:F.
  cbn in I. assert (D' : k_detector k' = false).
  { destruct h; cbn in E; injection E as <- <-; cbn; try exact D. destruct A. left. reflexivity. }
  apply in_app_or in I. destruct I as [I|I].
  - destruct h; cbn -[groups] in E; injection E as <- <-; try contradiction.
    rewrite D in I. destruct I as [I|[]]. discriminate.
  - apply (IH k' msg D'); [cbn in A; tauto|]. rewrite F. exact I.
Qed.
(** With an id beyond 32 bits, the override does not replace what the light shows: both are
    published. *)
Definition C170_wide_claim : Prop := forall m d li r,
  NoDup (map (fun e => l_way (snd e)) m) -> Forall (fun e => fst e = l_way (snd e)) d ->
  NoDup (map fst d) -> In li (map snd m) -> Forall narrow (l_relations li) -> In r (l_relations li) ->
  (forall e, In e m -> In r (l_relations (snd e)) -> snd e = li) ->
  forall g, In g (groups None (detect d (request m))) -> u_id g = r ->
  tells (u_elements g) (fst (shown d li)) (snd (shown d li)).
Theorem C170_wide_refuted : ~ C170_wide_claim.
Proof.
  intros C.
  specialize (C [at_way 3000000000 [7] [green_circle]] [at_way 3000000000 [7] [red_circle]]
                (snd (at_way 3000000000 [7] [green_circle])) 7).
  assert (T : tells [to_message (to_wire 1 green_circle)] [red_circle] 1).
  { apply (C ltac:(cbn; repeat constructor; cbn; tauto) ltac:(repeat constructor)
             ltac:(cbn; repeat constructor; cbn; tauto) ltac:(left; reflexivity) ltac:(narrow)
             ltac:(left; reflexivity) ltac:(intros e [<-|[]] _; reflexivity)
             {| u_id := 7; u_elements := [to_message (to_wire 1 green_circle)]; u_predictions := [] |});
      [left; reflexivity|reflexivity]. }
  inversion T as [|? ? ? ? S _]. destruct S as (S & _). discriminate.
Qed.
Example C170_example :
  let k := {| k_lights := []; k_detected := []; k_held := []; k_detector := false |} in
  let m := [at_way 11 [7] [green_circle]; at_way 12 [8] [green_circle]] in
  let d := [at_way 12 [8] [red_circle]; at_way 13 [9] [red_circle]] in
  let l := [Attach; Lights m; Frame; Detected d; Initialize] in
  attached k l /\ proper (lights_of [] l) (detected_of [] l) /\
  option_map (map (fun g => (u_id g, u_elements g))) (last (snd (history k (l ++ [Frame]))) None) =
  Some [(7, [to_message (to_wire 1 green_circle)]); (8, [to_message (to_wire 1 red_circle)]);
        (9, [to_message (to_wire 1 red_circle)])].
Proof.
  cbn -[history]. split; [right; left; reflexivity|]. split; [|reflexivity].
  split; [narrow|]. split; [narrow|].
  split; [cbn; repeat constructor; cbn; lia|]. split; [repeat constructor|].
  cbn; repeat constructor; cbn; lia.
Qed.

(** ** C171: the architecture decides the format of the messages. *)

Lemma dated_eqb : forall ds c, Forall digit ds -> Forall digit c -> length ds = length c ->
  str_eqb (text "awf/universe/" ++ ds) (text "awf/universe/" ++ c) = (number 0 ds =? number 0 c).
Proof.
  intros ds c D E L. destruct (number 0 ds =? number 0 c) eqn:F.
  - apply Z.eqb_eq in F. apply str_eqb_true. f_equal. apply number_inj; assumption.
  - apply Z.eqb_neq in F. destruct (str_eqb _ _) eqn:G; [|reflexivity].
    apply str_eqb_true in G. apply app_inv_head in G. congruence.
Qed.
Lemma dated_plain : forall ds, str_eqb (text "awf/universe/" ++ ds) (text "awf/universe") = false.
Proof.
  intros ds. destruct (str_eqb _ _) eqn:G; [|reflexivity]. apply str_eqb_true in G.
  apply (f_equal (@length _)) in G. rewrite app_length in G. cbn in G. lia.
Qed.
Ltac digits := repeat constructor; unfold digit; vm_compute; lia.
(** With a date, it is the date that decides. *)
Theorem C171_dated : forall a date, dated a date ->
  detector_format a = (if date =? 20230906 then Signals
                       else if 20240605 <=? date then Groups else Refused) /\
  v2i_format a = (if date <=? 20230906 then Signals
                  else if 20240605 <=? date then Groups else Refused) /\
  other_sensors_accept a = true /\
  lights_enabled a = (20230906 <=? date).
Proof.
  intros a date (ds & -> & L & D & N).
  assert (D1 : Forall digit (text "20230906")) by digits.
  assert (D2 : Forall digit (text "20240605")) by digits.
  unfold detector_format, v2i_format, lights_enabled.
  change (text "awf/universe/20230906") with (text "awf/universe/" ++ text "20230906").
  change (text "awf/universe/20240605") with (text "awf/universe/" ++ text "20240605").
  rewrite dated_plain, !str_le_prefix, dated_eqb by (assumption || exact L).
  rewrite !str_le_number by (assumption || exact L || (symmetry; exact L)).
  change (number 0 (text "20230906")) with 20230906.
  change (number 0 (text "20240605")) with 20240605. rewrite N.
  split; [reflexivity|]. split; [reflexivity|]. split; reflexivity.
Qed.
(** When both publish, they publish the same format. *)
Lemma str_le_refl : forall a, str_le a a = true.
Proof. induction a; cbn [str_le]; [reflexivity|]. rewrite Nat.ltb_irrefl. assumption. Qed.
Lemma str_le_trans : forall a b c, str_le a b = true -> str_le b c = true -> str_le a c = true.
Proof.
  induction a as [|x a IH]; intros [|y b] [|z c] H1 H2; cbn [str_le] in *; try congruence.
  destruct (nat_of_ascii x <? nat_of_ascii y)%nat eqn:E1; destruct (nat_of_ascii y <? nat_of_ascii x)%nat eqn:E2;
  destruct (nat_of_ascii y <? nat_of_ascii z)%nat eqn:E3; destruct (nat_of_ascii z <? nat_of_ascii y)%nat eqn:E4;
  destruct (nat_of_ascii x <? nat_of_ascii z)%nat eqn:E5; destruct (nat_of_ascii z <? nat_of_ascii x)%nat eqn:E6;
  repeat match goal with
  | H : (_ <? _)%nat = true |- _ => apply Nat.ltb_lt in H
  | H : (_ <? _)%nat = false |- _ => apply Nat.ltb_ge in H
  end; try lia; try congruence; eauto.
Qed.
Theorem C171_same : forall a, detector_format a <> Refused -> v2i_format a <> Refused ->
  detector_format a = v2i_format a.
Proof.
  intros a. unfold detector_format, v2i_format.
  destruct (str_eqb a (text "awf/universe")); [congruence|].
  destruct (str_eqb a (text "awf/universe/20230906")) eqn:E.
  - apply str_eqb_true in E. subst a. intros _ _. reflexivity.
  - destruct (str_le (text "awf/universe/20240605") a) eqn:F; [|congruence]. intros _ _.
    destruct (str_le a (text "awf/universe/20230906")) eqn:G; [|reflexivity].
    pose proof (str_le_trans _ _ _ F G) as H. discriminate.
Qed.
(** The older format of the V2I messages is chosen for architectures the detector refuses. *)
Definition C171_both_claim : Prop := forall a, v2i_format a <> Refused -> detector_format a <> Refused.
Theorem C171_both_refuted : ~ C171_both_claim.
Proof. intros C. apply (C (text "awf/universe/20220101")); [discriminate|reflexivity]. Qed.
(** Names that are no architecture are not all refused. *)
Definition C171_unknown_claim : Prop := forall a, other_sensors_accept a = false ->
  detector_format a = Refused /\ v2i_format a = Refused.
Theorem C171_unknown_refuted : ~ C171_unknown_claim.
Proof. intros C. destruct (C (text "none")) as [D _]; [reflexivity|discriminate]. Qed.
Example C171_example : dated (text "awf/universe/20250130") 20250130.
Proof.
  exists (text "20250130"). split; [reflexivity|]. split; [reflexivity|]. split; [digits|reflexivity].
Qed.

Print Assumptions C167_bulb.
Print Assumptions C167_upper_arrows.
Print Assumptions C167_shape_refuted.
Print Assumptions C167_direct.
Print Assumptions C167_readable.
Print Assumptions C168_array.
Print Assumptions C168_groups.
Print Assumptions C168_no_others.
Print Assumptions C168_count.
Print Assumptions C168_formats.
Print Assumptions C168_one_group_refuted.
Print Assumptions C168_dark_refuted.
Print Assumptions C168_wide_refuted.
Print Assumptions C169_predictions.
Print Assumptions C169_not_detected.
Print Assumptions C169_dark_refuted.
Print Assumptions C170_shown.
Print Assumptions C170_nothing_else.
Print Assumptions C170_truth.
Print Assumptions C170_no_detector.
Print Assumptions C170_wide_refuted.
Print Assumptions C171_dated.
Print Assumptions C171_same.
Print Assumptions C171_both_refuted.
Print Assumptions C171_unknown_refuted.
