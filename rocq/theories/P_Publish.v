(** * Proofs about what is published about traffic lights. *)
From Coq Require Import Ascii String List Bool Arith ZArith Lia.
From Verif Require Import M_TrafficLight M_Publish S_Publish.
Import ListNotations.
Local Open Scope list_scope.
Local Open Scope Z_scope.

Lemma int32_narrow : forall z, narrow z -> int32 z = z.
Proof. intros z N. unfold narrow in N. unfold int32. rewrite Z.mod_small; lia. Qed.
Lemma map_int32 : forall l, Forall narrow l -> map int32 l = l.
Proof.
  induction 1; cbn; [reflexivity|]. rewrite int32_narrow, IHForall; auto.
Qed.

Lemma says_told : forall c b, says (to_message (to_wire c b)) (told b) c.
Proof. intros c [[] [] []]; repeat split. Qed.
Lemma tells_all : forall c bs, tells (map to_message (map (to_wire c) bs)) bs c.
Proof. intros c bs. induction bs; cbn; constructor; [apply says_told|assumption]. Qed.
Lemma tells_one : forall bs,
  tells (map (fun b => to_message (to_wire 1 b)) bs) bs 1.
Proof. intros bs. induction bs; cbn; constructor; [apply says_told|assumption]. Qed.

(** ** Groups *)

Lemma in_groups : forall p r g,
  In g (groups p r) <->
  exists s, In s r /\ In (u_id g) (s_relations s) /\ s_bulbs s <> [] /\
            u_elements g = map to_message (s_bulbs s) /\
            u_predictions g = group_predictions p (s_id s).
Proof.
  intros p r g. unfold groups. rewrite in_flat_map. split.
  - intros (s & I & J). exists s. split; [exact I|]. rewrite in_flat_map in J.
    destruct J as (rel & K & L). destruct (s_bulbs s) as [|b bs] eqn:E; [destruct L|].
    destruct L as [<-|[]]. cbn. split; [exact K|]. split; [discriminate|]. split; reflexivity.
  - intros (s & I & J & N & E & F). exists s. split; [exact I|]. rewrite in_flat_map.
    exists (u_id g). split; [exact J|]. destruct (s_bulbs s) as [|b bs] eqn:B; [congruence|].
    left. destruct g; cbn in *. subst. reflexivity.
Qed.

(** ** Detected states *)

Definition over (d : lights) (s : signal) : signal :=
  match override_of d (s_id s) with
  | Some o => {| s_id := s_id s; s_relations := s_relations s; s_bulbs := s_bulbs (light_signal o) |}
  | None => s
  end.
Lemma over_id : forall d s, s_id (over d s) = s_id s.
Proof. intros d s. unfold over. destruct (override_of d (s_id s)); reflexivity. Qed.
Lemma over_relations : forall d s, s_relations (over d s) = s_relations s.
Proof. intros d s. unfold over. destruct (override_of d (s_id s)); reflexivity. Qed.

Lemma override_none : forall d id, ~ In id (map fst d) -> override_of d id = None.
Proof.
  unfold override_of. induction d as [|[i o] d IH]; intros id N; [reflexivity|]. cbn in *.
  destruct (i =? id) eqn:E; [apply Z.eqb_eq in E; tauto|]. apply IH. tauto.
Qed.
Lemma override_cons : forall i o d id,
  override_of ((i, o) :: d) id = if i =? id then Some o else override_of d id.
Proof. intros. unfold override_of. cbn. destruct (i =? id); reflexivity. Qed.

Lemma over_cons : forall i o d s, ~ In i (map fst d) -> over ((i, o) :: d) s = over d (over [(i, o)] s).
Proof.
  intros i o d s N. unfold over at 1. rewrite override_cons.
  unfold over at 2. rewrite override_cons. destruct (i =? s_id s) eqn:E.
  - apply Z.eqb_eq in E. unfold over. cbn [s_id]. rewrite <- E, override_none by assumption.
    reflexivity.
  - change (override_of [] (s_id s)) with (@None light). reflexivity.
Qed.

Lemma replace_spec : forall r id l, NoDup (map s_id r) ->
  (forall r', replace_first r id l = Some r' -> In id (map s_id r) /\ r' = map (over [(id, l)]) r) /\
  (replace_first r id l = None -> ~ In id (map s_id r)).
Proof.
  induction r as [|s r IH]; intros id l N; cbn [replace_first map].
  - split; [discriminate|]. intros _ [].
  - inversion N as [|x y N1 N2]; subst. destruct (IH id l N2) as [IH1 IH2].
    destruct (s_id s =? id) eqn:E.
    + apply Z.eqb_eq in E. split; [|discriminate]. intros r' F. injection F as <-.
      split; [left; exact E|]. f_equal.
      * unfold over. rewrite override_cons, <- E, Z.eqb_refl. reflexivity.
      * symmetry. rewrite <- (map_id r) at 2. apply map_ext_in. intros a I. unfold over.
        rewrite override_cons. destruct (id =? s_id a) eqn:F; [|reflexivity].
        apply Z.eqb_eq in F. destruct N1. rewrite E, F. apply in_map. exact I.
    + apply Z.eqb_neq in E. destruct (replace_first r id l) as [r0|] eqn:F; cbn.
      * split; [|discriminate]. intros r' G. injection G as <-.
        destruct (IH1 r0 eq_refl) as [J K]. split; [right; exact J|]. rewrite K. f_equal.
        unfold over. rewrite override_cons. destruct (id =? s_id s) eqn:H; [|reflexivity].
        apply Z.eqb_eq in H. congruence.
      * split; [discriminate|]. intros _ [H|H]; [congruence|]. exact (IH2 eq_refl H).
Qed.

Definition keyed (e : Z * light) : Prop := fst e = l_way (snd e) /\ narrow (fst e).

Lemma over_ids : forall d r, map s_id (map (over d) r) = map s_id r.
Proof. intros. rewrite map_map. apply map_ext. intros. apply over_id. Qed.

Lemma NoDup_snoc : forall (A : Type) (x : A) l, NoDup l -> ~ In x l -> NoDup (l ++ [x]).
Proof.
  intros A x l N I. rewrite <- (rev_involutive (l ++ [x])). apply NoDup_rev.
  rewrite rev_app_distr. cbn. constructor.
  - rewrite <- in_rev. exact I.
  - apply NoDup_rev. exact N.
Qed.

Lemma in_detect : forall d r, NoDup (map s_id r) -> NoDup (map fst d) -> Forall keyed d ->
  forall s, In s (detect d r) <->
  (exists s0, In s0 r /\ s = over d s0) \/
  (exists e, In e d /\ ~ In (fst e) (map s_id r) /\ s = light_signal (snd e)).
Proof.
  induction d as [|[i o] d IH]; intros r N D K s; cbn [detect fold_left].
  - split.
    + intros I. left. exists s. split; [exact I|]. reflexivity.
    + intros [(s0 & I & ->)|(e & [] & _)]. exact I.
  - inversion D as [|x y D1 D2]; subst. inversion K as [|x y [K1 K2] K3]; subst. cbn in K1, K2, D1.
    assert (L : s_id (light_signal o) = i)
      by (cbn; rewrite int32_narrow; [symmetry; exact K1|rewrite <- K1; exact K2]).
    change (fold_left detect1 d (detect1 r (i, o))) with (detect d (detect1 r (i, o))).
    destruct (replace_spec r i o N) as [R1 R2]. unfold detect1. cbn [fst snd].
    destruct (replace_first r i o) as [r'|].
    + destruct (R1 r' eq_refl) as [I ->]. rewrite IH; [|rewrite over_ids; exact N|exact D2|exact K3].
      rewrite over_ids. split.
      * intros [(s0 & J & ->)|(e & J & M & ->)].
        -- apply in_map_iff in J. destruct J as (s1 & <- & J). left. exists s1. split; [exact J|].
           symmetry. apply over_cons. exact D1.
        -- right. exists e. split; [right; exact J|]. split; [exact M|reflexivity].
      * intros [(s0 & J & ->)|(e & [<-|J] & M & ->)].
        -- left. exists (over [(i, o)] s0). split; [apply in_map; exact J|].
           apply over_cons. exact D1.
        -- cbn in M. tauto.
        -- right. exists e. split; [exact J|]. split; [exact M|reflexivity].
    + specialize (R2 eq_refl). rewrite IH; [| |exact D2|exact K3].
      2:{ rewrite map_app. cbn [map]. rewrite L. apply NoDup_snoc; assumption. }
      rewrite map_app. cbn [map]. rewrite L.
      assert (U : forall s0, In s0 r -> over ((i, o) :: d) s0 = over d s0).
      { intros s0 J. rewrite over_cons by exact D1. f_equal. unfold over.
        rewrite override_cons. destruct (i =? s_id s0) eqn:F; [|reflexivity].
        apply Z.eqb_eq in F. destruct R2. rewrite F. apply in_map. exact J. }
      assert (W : over d (light_signal o) = light_signal o)
        by (unfold over; rewrite L, override_none by exact D1; reflexivity).
      split.
      * intros [(s0 & J & ->)|(e & J & M & ->)].
        -- apply in_app_or in J. destruct J as [J|[<-|[]]].
           ++ left. exists s0. split; [exact J|]. symmetry. apply U. exact J.
           ++ right. exists (i, o). split; [left; reflexivity|]. split; [exact R2|]. exact W.
        -- right. exists e. split; [right; exact J|]. split; [|reflexivity].
           intros H. apply M. apply in_or_app. left. exact H.
      * intros [(s0 & J & ->)|(e & [<-|J] & M & ->)].
        -- left. exists s0. split; [apply in_or_app; left; exact J|]. apply U. exact J.
        -- left. exists (light_signal o). split; [apply in_or_app; right; left; reflexivity|].
           symmetry. exact W.
        -- right. exists e. split; [exact J|]. split; [|reflexivity].
           intros H. apply in_app_or in H. destruct H as [H|[H|[]]]; [tauto|].
           destruct D1. rewrite H. apply in_map. exact J.
Qed.

(** ** The lights of a request *)

Lemma in_request : forall m s, In s (request m) <-> exists e, In e m /\ s = light_signal (snd e).
Proof.
  intros m s. unfold request. rewrite in_map_iff. split.
  - intros ([i l] & <- & I). exists (i, l). split; [exact I|reflexivity].
  - intros ([i l] & I & ->). exists (i, l). split; [reflexivity|exact I].
Qed.
Lemma request_ids : forall m, narrow_lights m ->
  map s_id (request m) = map (fun e => l_way (snd e)) m.
Proof.
  induction 1 as [|[i l] m [N _] N' IH]; [reflexivity|]. cbn. rewrite int32_narrow by exact N.
  f_equal. exact IH.
Qed.
Lemma narrow_in : forall m e, narrow_lights m -> In e m -> narrow_light (snd e).
Proof.
  intros m [i l] N I. unfold narrow_lights in N. rewrite Forall_forall in N. exact (N _ I).
Qed.
Lemma signal_relations : forall l, narrow_light l -> s_relations (light_signal l) = l_relations l.
Proof. intros l [_ N]. cbn. apply map_int32. exact N. Qed.
Lemma signal_id : forall l, narrow_light l -> s_id (light_signal l) = l_way l.
Proof. intros l [N _]. cbn. apply int32_narrow. exact N. Qed.

Lemma override_in : forall d e, NoDup (map fst d) -> In e d -> override_of d (fst e) = Some (snd e).
Proof.
  induction d as [|[i o] d IH]; intros e N [].
  - subst e. rewrite override_cons, Z.eqb_refl. reflexivity.
  - inversion N as [|x y N1 N2]; subst. rewrite override_cons. destruct (i =? fst e) eqn:E.
    + apply Z.eqb_eq in E. destruct N1. cbn. rewrite E. apply in_map. assumption.
    + apply IH; assumption.
Qed.

Lemma over_bulbs : forall d l, narrow_light l ->
  s_bulbs (over d (light_signal l)) = map (to_wire (snd (shown d l))) (fst (shown d l)).
Proof.
  intros d l N. unfold over, shown. rewrite signal_id by exact N.
  destruct (override_of d (l_way l)); reflexivity.
Qed.

Lemma keyed_of : forall d, narrow_lights d -> Forall (fun e => fst e = l_way (snd e)) d -> Forall keyed d.
Proof.
  intros d N K. apply Forall_forall. intros e I. rewrite Forall_forall in K.
  pose proof (narrow_in _ _ N I) as [W _]. split; [apply K; exact I|].
  rewrite (K _ I). exact W.
Qed.

Lemma map_nonempty : forall (A B : Type) (f : A -> B) l, map f l <> [] <-> l <> [].
Proof. intros A B f [|x l]; cbn; split; congruence. Qed.

(** Each signal of the lights with their detected states, seen as a light to be shown. *)
Lemma in_detected : forall m d s, proper m d ->
  In s (detect d (request m)) <->
  exists l, (In l (map snd m) \/ (In l (map snd d) /\ ~ In (l_way l) (map (fun e => l_way (snd e)) m))) /\
            narrow_light l /\ s_id s = l_way l /\ s_relations s = l_relations l /\
            s_bulbs s = map (to_wire (snd (shown d l))) (fst (shown d l)).
Proof.
  intros m d s (Nm & Nd & U & K & V).
  rewrite in_detect; [|rewrite request_ids; assumption|assumption|apply keyed_of; assumption].
  rewrite request_ids by assumption. rewrite Forall_forall in K. split.
  - intros [(s0 & I & ->)|(e & I & M & ->)].
    + apply in_request in I. destruct I as (e & I & ->). pose proof (narrow_in _ _ Nm I) as N.
      exists (snd e). split; [left; apply in_map; exact I|]. split; [exact N|].
      rewrite over_id, over_relations, signal_id, signal_relations, over_bulbs by exact N.
      auto.
    + pose proof (narrow_in _ _ Nd I) as N. exists (snd e). rewrite <- (K _ I).
      split; [right; split; [apply in_map; exact I|exact M]|]. split; [exact N|].
      rewrite signal_id, signal_relations by exact N. split; [symmetry; apply K; exact I|].
      split; [reflexivity|]. unfold shown. rewrite <- (K _ I), (override_in _ _ V I). reflexivity.
  - intros (l & [I|[I M]] & N & E1 & E2 & E3); apply in_map_iff in I; destruct I as (e & <- & I).
    + left. exists (light_signal (snd e)). split; [apply in_request; exists e; auto|].
      destruct s as [a b c]. cbn in E1, E2, E3. rewrite <- signal_id in E1 by exact N.
      rewrite <- signal_relations in E2 by exact N. rewrite <- over_bulbs in E3 by exact N.
      subst. rewrite <- (over_id d), <- (over_relations d).
      destruct (over d (light_signal (snd e))); reflexivity.
    + right. exists e. split; [exact I|]. rewrite (K _ I). split; [exact M|].
      unfold shown in E3. rewrite <- (K _ I), (override_in _ _ V I) in E3. cbn in E3.
      destruct s as [a b c]. cbn in E1, E2, E3. subst.
      rewrite <- signal_id, <- signal_relations by exact N. reflexivity.
Qed.

(** ** Histories *)

Lemma history_app : forall l1 l2 k,
  history k (l1 ++ l2) =
  (let '(k1, o1) := history k l1 in let '(k2, o2) := history k1 l2 in (k2, o1 ++ o2)).
Proof.
  induction l1 as [|h l1 IH]; intros l2 k; cbn [history app].
  - destruct (history k l2). reflexivity.
  - destruct (happen k h) as [k' o]. rewrite IH. destruct (history k' l1) as [k1 o1].
    destruct (history k1 l2) as [k2 o2]. rewrite app_assoc. reflexivity.
Qed.

Lemma history_state : forall l k,
  k_lights (fst (history k l)) = lights_of (k_lights k) l /\
  k_detected (fst (history k l)) = detected_of (k_detected k) l /\
  (attached k l -> k_detector (fst (history k l)) = true).
Proof.
  induction l as [|h l IH]; intros k.
  - cbn. split; [reflexivity|]. split; [reflexivity|]. intros [A|[]]; exact A.
  - cbn [history]. destruct (happen k h) as [k' o] eqn:E. specialize (IH k').
    destruct (history k' l) as [k'' o'] eqn:F. cbn [fst] in *. destruct IH as (I1 & I2 & I3).
    assert (S : lights_of (k_lights k') l = lights_of (k_lights k) (h :: l) /\
                detected_of (k_detected k') l = detected_of (k_detected k) (h :: l) /\
                (attached k (h :: l) -> attached k' l)).
    { unfold attached. destruct h; cbn in E |- *; injection E as <- <-; cbn;
        (split; [reflexivity|]; split; [reflexivity|]);
        intros [A|[B|A]]; auto; discriminate. }
    destruct S as (S1 & S2 & S3). rewrite <- S1, <- S2. auto.
Qed.

Lemma last_frame : forall k l, attached k l ->
  last (snd (history k (l ++ [Frame]))) None =
  Some (groups None (detect (detected_of (k_detected k) l) (request (lights_of (k_lights k) l)))).
Proof.
  intros k l A. rewrite history_app. destruct (history_state l k) as (S1 & S2 & S3).
  specialize (S3 A). destruct (history k l) as [k1 o1]. cbn [fst] in *.
  cbn. rewrite S3, S1, S2. rewrite app_nil_r || idtac. apply last_last.
Qed.

(** ** Architectures *)

Lemma str_le_prefix : forall p a b, str_le (p ++ a) (p ++ b) = str_le a b.
Proof.
  induction p as [|c p IH]; intros a b; [reflexivity|]. cbn [app str_le]. rewrite Nat.ltb_irrefl. apply IH.
Qed.
Lemma str_eqb_true : forall a b, str_eqb a b = true <-> a = b.
Proof. intros a b. unfold str_eqb. destruct (list_eq_dec ascii_dec a b); split; congruence. Qed.

Lemma ten_pow : forall n, 0 < 10 ^ Z.of_nat n.
Proof. intros. apply Z.pow_pos_nonneg; lia. Qed.
Lemma number_shift : forall l n,
  number n l = n * 10 ^ Z.of_nat (length l) + number 0 l.
Proof.
  induction l as [|c l IH]; intros n.
  - cbn [number length]. change (Z.of_nat 0) with 0. rewrite Z.pow_0_r. lia.
  - cbn [number length]. rewrite IH. rewrite (IH (10 * 0 + _)).
    rewrite Nat2Z.inj_succ, Z.pow_succ_r by lia. ring.
Qed.
Lemma number_range : forall l, Forall digit l -> 0 <= number 0 l < 10 ^ Z.of_nat (length l).
Proof.
  induction 1 as [|c l D F IH]; [cbn; lia|]. cbn [number]. rewrite number_shift.
  cbn [length]. rewrite Nat2Z.inj_succ, Z.pow_succ_r by lia.
  unfold digit in D. pose proof (ten_pow (length l)). nia.
Qed.
Lemma str_le_number : forall a b, Forall digit a -> Forall digit b -> length a = length b ->
  str_le a b = (number 0 a <=? number 0 b).
Proof.
  intros a. induction a as [|x a IH]; intros [|y b] Da Db L; try discriminate; [reflexivity|].
  inversion Da as [|? ? Dx Da']; subst. inversion Db as [|? ? Dy Db']; subst.
  injection L as L. cbn [str_le number]. rewrite (number_shift a), (number_shift b).
  pose proof (number_range a Da') as Ra. pose proof (number_range b Db'). rewrite L in Ra |- *.
  pose proof (ten_pow (length b)). unfold digit in *.
  destruct (nat_of_ascii x <? nat_of_ascii y)%nat eqn:E.
  - apply Nat.ltb_lt in E. symmetry. apply Z.leb_le. nia.
  - apply Nat.ltb_ge in E. destruct (nat_of_ascii y <? nat_of_ascii x)%nat eqn:F.
    + apply Nat.ltb_lt in F. symmetry. apply Z.leb_gt. nia.
    + apply Nat.ltb_ge in F. rewrite IH by assumption. replace (nat_of_ascii y) with (nat_of_ascii x) by lia.
      destruct (number 0 a <=? number 0 b) eqn:G; symmetry; [apply Z.leb_le|apply Z.leb_gt].
      * apply Z.leb_le in G. lia.
      * apply Z.leb_gt in G. lia.
Qed.
Lemma number_inj : forall a b, Forall digit a -> Forall digit b -> length a = length b ->
  number 0 a = number 0 b -> a = b.
Proof.
  intros a. induction a as [|x a IH]; intros [|y b] Da Db L E; try discriminate; [reflexivity|].
  inversion Da as [|? ? Dx Da']; subst. inversion Db as [|? ? Dy Db']; subst.
  injection L as L. cbn [number] in E. rewrite (number_shift a), (number_shift b) in E.
  pose proof (number_range a Da') as Ra. pose proof (number_range b Db'). rewrite L in Ra, E.
  pose proof (ten_pow (length b)). unfold digit in *.
  assert (nat_of_ascii x = nat_of_ascii y) by nia.
  f_equal.
  - rewrite <- (ascii_nat_embedding x), <- (ascii_nat_embedding y). congruence.
  - apply IH; try assumption. nia.
Qed.
