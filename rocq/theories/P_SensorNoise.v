(** * Proofs about the noise of detection sensors *)

From Coq Require Import ZArith QArith List Bool String Lia Lqa.
From Verif Require Import M_Sensors S_Sensors.
Import ListNotations.
Open Scope Q_scope.

Lemma append_cancel a b c : (a ++ b = a ++ c)%string -> b = c.
Proof. induction a as [|x a IH]; simpl; auto. intros H. injection H. auto. Qed.

Lemma append_assoc a b c : ((a ++ b) ++ c = a ++ b ++ c)%string.
Proof. induction a as [|x a IH]; simpl; auto. rewrite IH. reflexivity. Qed.

(** Names that are not among some, under the same base. *)
Lemma other_name base r l : existsb (String.eqb r) l = false -> ~ In (base ++ r)%string (map (append base) l).
Proof.
  intros E I. apply in_map_iff in I. destruct I as (x & X & I). apply append_cancel in X. subst x.
  assert (existsb (String.eqb r) l = true); [|congruence].
  apply existsb_exists. exists r. split; auto. apply String.eqb_refl.
Qed.

Section noise.
Context {G : geometry}.
Variable D : draws.

(** ** Parameters that are not read *)

Section names.
Variables p p' : parameters.
Variable base : string.
Hypothesis agree : forall n, ~ In n (map (append base) documented) -> number p n = number p' n.
Hypothesis lists : forall n, numbers p n = numbers p' n.

Lemma same_number r : existsb (String.eqb r) documented = false ->
  get_number p (base ++ r) = get_number p' (base ++ r).
Proof. intros E. unfold get_number. rewrite agree; auto. apply other_name. exact E. Qed.

Lemma same_selector x y what :
  existsb (String.eqb (what ++ ".ellipse_normalized_x_radius")) documented = false ->
  selector p base x y what = selector p' base x y what.
Proof.
  intros E. unfold selector, get_numbers. rewrite !lists, same_number by exact E. reflexivity.
Qed.

Lemma same_autocorrelation what i :
  existsb (String.eqb (what ++ "autocorrelation_coefficient.amplitude")) documented = false ->
  existsb (String.eqb (what ++ "autocorrelation_coefficient.decay")) documented = false ->
  existsb (String.eqb (what ++ "autocorrelation_coefficient.offset")) documented = false ->
  autocorrelation G p (base ++ what) i = autocorrelation G p' (base ++ what) i.
Proof. intros A B C. unfold autocorrelation. rewrite !append_assoc, !same_number by assumption. reflexivity. Qed.

Lemma same_noise_one ego t m (s : status G) k :
  noise_one D p base ego t m s k = noise_one D p' base ego t m s k.
Proof.
  unfold noise_one.
  rewrite !(same_selector _ _ "distance.mean"), !(same_selector _ _ "distance.standard_deviation"),
    !(same_selector _ _ "yaw.mean"), !(same_selector _ _ "yaw.standard_deviation"),
    !(same_selector _ _ "true_positive.rate") by reflexivity.
  rewrite !(same_number "yaw_flip.speed_threshold"), !(same_number "yaw_flip.rate") by reflexivity.
  rewrite !(same_autocorrelation "distance"), !(same_autocorrelation "yaw"),
    !(same_autocorrelation "yaw_flip"), !(same_autocorrelation "true_positive") by reflexivity.
  reflexivity.
Qed.

Lemma same_noise_v2 ego t (l : list (status G)) : forall m k,
  noise_v2 D p base ego t m l k = noise_v2 D p' base ego t m l k.
Proof.
  induction l as [|s l IH]; intros m k; cbn [noise_v2]; auto.
  rewrite same_noise_one. destruct (noise_one D p' base ego t m s k) as [[[m' s'] k']|]; cbn [bind]; auto.
  rewrite IH. reflexivity.
Qed.
End names.

(** ** The probability of detection *)

Lemma clamp_0 q : q == 0 -> clamp 0 1 q == 0.
Proof.
  intros E. unfold clamp.
  destruct (Qle_bool 0 q) eqn:A; cbn [negb]; [|lra].
  destruct (Qle_bool q 1) eqn:B; cbn [negb]; [exact E|].
  exfalso. assert (Qle_bool q 1 = true) by (apply Qle_bool_iff; lra). congruence.
Qed.

Lemma Qlt_bool q r : negb (Qle_bool q r) = true <-> r < q.
Proof.
  destruct (Qle_bool q r) eqn:E; simpl.
  - apply Qle_bool_iff in E. split; [discriminate|]. intros L. lra.
  - split; auto. intros _. apply Qnot_le_lt. intros L. apply Qle_bool_iff in L. congruence.
Qed.

Section absent.
Variable p : parameters.
Variable base : string.
Hypothesis absent : forall n, In n misspelt -> number p (base ++ n) = None.

Lemma no_autocorrelation what i : In what ["distance"; "yaw"; "yaw_flip"; "true_positive"]%string ->
  autocorrelation G p (base ++ what) i == 0.
Proof.
  intros W. unfold autocorrelation. rewrite !append_assoc. unfold get_number.
  rewrite !absent.
  - apply clamp_0. ring.
  - unfold misspelt. apply in_flat_map. exists what. split; auto. simpl. auto.
  - unfold misspelt. apply in_flat_map. exists what. split; auto. simpl. auto.
  - unfold misspelt. apply in_flat_map. exists what. split; auto. simpl. auto.
Qed.

Lemma markov_now prev rate phi k : phi == 0 -> markov D prev rate phi k = negb (Qle_bool rate (uniform D k)).
Proof.
  intros P. unfold markov. apply eq_true_iff_eq. rewrite !Qlt_bool.
  assert (E : (if prev then 1 else 0) * phi + (1 - phi) * rate == rate) by (rewrite P; ring).
  rewrite E. reflexivity.
Qed.

Definition slow (s : status G) : bool :=
  negb (Qle_bool (get_number p (base ++ "yaw_flip.speed_threshold")) (speed s)).

Lemma noise_one_now ego t m (s : status G) k m' out k' :
  noise_one D p base ego t m s k = Some (m', out, k') ->
  k' = (if slow s then 4 + k else 3 + k)%nat /\
  (forall s', out = Some s' -> s_name s' = s_name s) /\
  exists rate,
    selector p base (x_of (position (where_ s)) - x_of (position ego)) (y_of (position (where_ s)) - y_of (position ego))
      "true_positive.rate" = Some rate /\
    (out <> None <-> uniform D (k' - 1) < rate).
Proof.
  unfold noise_one. fold (slow s).
  destruct (selector p base _ _ "distance.mean") as [dm|]; cbn [bind]; [|discriminate].
  destruct (selector p base _ _ "distance.standard_deviation") as [ds|]; cbn [bind]; [|discriminate].
  destruct (selector p base _ _ "yaw.mean") as [ym|]; cbn [bind]; [|discriminate].
  destruct (selector p base _ _ "yaw.standard_deviation") as [ys|]; cbn [bind]; [|discriminate].
  destruct (selector p base _ _ "true_positive.rate") as [rate|]; cbn [bind]; [|discriminate].
  intros H. injection H as <- <- <-.
  split; [destruct (slow s); reflexivity|]. split.
  - intros s'. destruct (markov _ _ _ _ _); [|discriminate]. intros E. injection E as <-. reflexivity.
  - exists rate. split; [reflexivity|]. rewrite markov_now by (apply no_autocorrelation; simpl; auto).
    replace (S (if slow s then S (S (S k)) else S (S k)) - 1)%nat with (if slow s then S (S (S k)) else S (S k)) by (destruct (slow s); lia).
    rewrite <- Qlt_bool. destruct (negb _); split; congruence.
Qed.

(** What is detected does not depend on what was. *)
Lemma memoryless_one ego t t' m m' (s : status G) k :
  match noise_one D p base ego t m s k, noise_one D p base ego t' m' s k with
  | Some (_, o1, k1), Some (_, o2, k2) => k1 = k2 /\ option_map s_name o1 = option_map s_name o2
  | None, None => True
  | _, _ => False
  end.
Proof.
  destruct (noise_one D p base ego t m s k) as [[[m1 o1] k1]|] eqn:E1;
    destruct (noise_one D p base ego t' m' s k) as [[[m2 o2] k2]|] eqn:E2; auto.
  - destruct (noise_one_now _ _ _ _ _ _ _ _ E1) as (K1 & N1 & r1 & R1 & H1).
    destruct (noise_one_now _ _ _ _ _ _ _ _ E2) as (K2 & N2 & r2 & R2 & H2).
    rewrite R1 in R2. injection R2 as <-. subst k1 k2. split; auto.
    rewrite <- H2 in H1. destruct o1 as [a|], o2 as [b|]; simpl; auto.
    + rewrite (N1 a), (N2 b); auto.
    + exfalso. assert (@None (status G) <> None) by (apply H1; discriminate). congruence.
    + exfalso. assert (@None (status G) <> None) by (apply H1; discriminate). congruence.
  - unfold noise_one in *.
    destruct (selector p base _ _ "distance.mean") as [dm|]; cbn [bind] in *; [|discriminate].
    destruct (selector p base _ _ "distance.standard_deviation") as [ds|]; cbn [bind] in *; [|discriminate].
    destruct (selector p base _ _ "yaw.mean") as [ym|]; cbn [bind] in *; [|discriminate].
    destruct (selector p base _ _ "yaw.standard_deviation") as [ys|]; cbn [bind] in *; [|discriminate].
    destruct (selector p base _ _ "true_positive.rate") as [rate|]; cbn [bind] in *; discriminate.
  - unfold noise_one in *.
    destruct (selector p base _ _ "distance.mean") as [dm|]; cbn [bind] in *; [|discriminate].
    destruct (selector p base _ _ "distance.standard_deviation") as [ds|]; cbn [bind] in *; [|discriminate].
    destruct (selector p base _ _ "yaw.mean") as [ym|]; cbn [bind] in *; [|discriminate].
    destruct (selector p base _ _ "yaw.standard_deviation") as [ys|]; cbn [bind] in *; [|discriminate].
    destruct (selector p base _ _ "true_positive.rate") as [rate|]; cbn [bind] in *; discriminate.
Qed.

Lemma memoryless ego t t' (l : list (status G)) : forall m m' k,
  match noise_v2 D p base ego t m l k, noise_v2 D p base ego t' m' l k with
  | Some (_, l1, k1), Some (_, l2, k2) => k1 = k2 /\ map s_name l1 = map s_name l2
  | None, None => True
  | _, _ => False
  end.
Proof.
  induction l as [|s l IH]; intros m m' k; cbn [noise_v2]; auto.
  pose proof (memoryless_one ego t t' m m' s k) as H.
  destruct (noise_one D p base ego t m s k) as [[[m1 o1] k1]|];
    destruct (noise_one D p base ego t' m' s k) as [[[m2 o2] k2]|]; cbn [bind]; try contradiction; auto.
  destruct H as [<- H]. specialize (IH m1 m2 k1).
  destruct (noise_v2 D p base ego t m1 l k1) as [[[m3 l1] k3]|];
    destruct (noise_v2 D p base ego t' m2 l k1) as [[[m4 l2] k4]|]; cbn [bind]; try contradiction; auto.
  destruct IH as [<- IH]. split; auto.
  destruct o1 as [a|], o2 as [b|]; simpl in *; try discriminate; congruence.
Qed.

Lemma published_rate ego t (l : list (status G)) : (forall k, 0 <= uniform D k) -> forall m k m' l' k',
  noise_v2 D p base ego t m l k = Some (m', l', k') ->
  forall s', In s' l' -> exists s rate, In s l /\ s_name s = s_name s' /\
    selector p base (x_of (position (where_ s)) - x_of (position ego)) (y_of (position (where_ s)) - y_of (position ego))
      "true_positive.rate" = Some rate /\ 0 < rate.
Proof.
  intros U. induction l as [|s l IH]; intros m k m' l' k' R s' I; cbn [noise_v2] in R.
  - injection R as <- <- <-. destruct I.
  - destruct (noise_one D p base ego t m s k) as [[[m1 o1] k1]|] eqn:E1; cbn [bind] in R; [|discriminate].
    destruct (noise_v2 D p base ego t m1 l k1) as [[[m2 l2] k2]|] eqn:E2; cbn [bind] in R; [|discriminate].
    injection R as <- <- <-. destruct (noise_one_now _ _ _ _ _ _ _ _ E1) as (_ & NM & rate & R & H).
    assert (C : In s' l2 \/ o1 = Some s').
    { destruct o1 as [a|]; simpl in I; [destruct I as [->|I]|]; auto. }
    destruct C as [C|C].
    + destruct (IH _ _ _ _ _ E2 s' C) as (s0 & r0 & I0 & X). exists s0, r0. simpl. auto.
    + exists s, rate. split; [simpl; auto|]. split; [symmetry; auto|]. split; [auto|].
      assert (uniform D (k1 - 1) < rate) by (apply H; rewrite C; discriminate).
      specialize (U (k1 - 1)%nat). lra.
Qed.
End absent.

Lemma pick_spec rx x y radii : ~ rx == 0 -> forall values, List.length radii = List.length values ->
  value_at rx radii values x y (pick (Some ((x / rx) * (x / rx) + y * y)) radii values).
Proof.
  intros RX. induction radii as [|r radii IH]; intros [|v values] L; try discriminate; cbn [pick].
  - right. split; [auto|]. intros r [].
  - destruct (negb (Qle_bool r 0) && negb (Qle_bool (r * r) ((x / rx) * (x / rx) + y * y))) eqn:E.
    + apply andb_true_iff in E. rewrite !Qlt_bool in E. left. exists 0%nat, r.
      split; [reflexivity|]. split; [reflexivity|]. split; [split; tauto|]. intros j r' J. lia.
    + assert (NI : ~ inside rx r x y).
      { intros (_ & A & B). assert (X : negb (Qle_bool r 0) && negb (Qle_bool (r * r) ((x / rx) * (x / rx) + y * y)) = true); [|congruence].
        apply andb_true_iff. rewrite !Qlt_bool. auto. }
      simpl in L. destruct (IH values ltac:(lia)) as [(i & r' & A & B & C & F)|(A & B)].
      * left. exists (S i), r'. split; [auto|]. split; [auto|]. split; [auto|].
        intros [|j] q J Q; simpl in Q; [injection Q as <-; auto|]. apply (F j q); [lia|auto].
      * right. split; auto. intros q [<-|I]; auto.
Qed.

Lemma pick_none radii : forall values, pick None radii values = 0.
Proof. induction radii as [|r radii IH]; intros [|v values]; simpl; auto. Qed.

Lemma selector_spec p base x y what v : selector p base x y what = Some v ->
  value_at (get_number p (base ++ what ++ ".ellipse_normalized_x_radius")) (get_numbers p (base ++ "ellipse_y_radii"))
    (get_numbers p (base ++ what ++ ".values")) x y v.
Proof.
  unfold selector. destruct (Nat.eqb _ _) eqn:L; [|discriminate]. apply Nat.eqb_eq in L.
  intros H. injection H as <-. destruct (Qeq_bool _ _) eqn:Z.
  - rewrite pick_none. right. split; auto. intros r _ (A & _). apply Qeq_bool_iff in Z. contradiction.
  - apply pick_spec; auto. intros A. apply Qeq_bool_iff in A. congruence.
Qed.

(** ** Version 1 *)

Definition same_place (s s' : status G) : Prop :=
  s_name s' = s_name s /\ is_ego s' = is_ego s /\ speed s' = speed s /\
  facing (where_ s') = facing (where_ s) /\ x_of (position (where_ s')) == x_of (position (where_ s)) /\
  y_of (position (where_ s')) == y_of (position (where_ s)) /\ z_of (position (where_ s')) = z_of (position (where_ s)).

Lemma shift_0 (l : list (status G)) : forall sd k l' k', sd == 0 -> shift D sd l k = (l', k') -> Forall2 same_place l l'.
Proof.
  induction l as [|s l IH]; intros sd k l' k' Z E; cbn [shift] in E.
  - injection E as <- <-. constructor.
  - destruct (shift D sd l (S (S k))) as [r' k2] eqn:R. injection E as <- <-. constructor; [|eauto].
    unfold same_place, moved. cbn. repeat split; rewrite Z; ring.
Qed.

Lemma lose_none (l : list (status G)) : forall pr k, pr <= 0 -> (forall i, 0 <= uniform D i) ->
  fst (lose D pr l k) = l.
Proof.
  induction l as [|s l IH]; intros pr k P U; cbn [lose]; auto.
  specialize (IH pr (S k) P U). destruct (lose D pr l (S k)) as [r' k']. simpl in *. subst r'.
  replace (Qle_bool pr (uniform D k)) with true; [reflexivity|]. symmetry. apply Qle_bool_iff.
  specialize (U k). lra.
Qed.

Lemma lose_all (l : list (status G)) : forall pr k, 1 <= pr -> (forall i, uniform D i < 1) ->
  fst (lose D pr l k) = [].
Proof.
  induction l as [|s l IH]; intros pr k P U; cbn [lose]; auto.
  specialize (IH pr (S k) P U). destruct (lose D pr l (S k)) as [r' k']. simpl in *. subst r'.
  assert (X : negb (Qle_bool pr (uniform D k)) = true); [|rewrite X; reflexivity].
  apply Qlt_bool. specialize (U k). lra.
Qed.

(** ** Version 3 *)

Lemma noise_one_lookup p base ego t m (s : status G) k m' out k' :
  noise_one D p base ego t m s k = Some (m', out, k') ->
  (forall n, n <> s_name s -> lookup n m' = lookup n m) /\
  (forall s', out = Some s' -> s_name s' = s_name s) /\
  (forall o, lookup (s_name s) m = Some o -> exists o', lookup (s_name s) m' = Some o' /\ config o' = config o).
Proof.
  unfold noise_one.
  destruct (selector p base _ _ "distance.mean") as [dm|]; cbn [bind]; [|discriminate].
  destruct (selector p base _ _ "distance.standard_deviation") as [ds|]; cbn [bind]; [|discriminate].
  destruct (selector p base _ _ "yaw.mean") as [ym|]; cbn [bind]; [|discriminate].
  destruct (selector p base _ _ "yaw.standard_deviation") as [ys|]; cbn [bind]; [|discriminate].
  destruct (selector p base _ _ "true_positive.rate") as [rate|]; cbn [bind]; [|discriminate].
  intros H. injection H as <- <- <-. split; [|split].
  - intros n NE. cbn [update lookup]. destruct (Nat.eqb_spec (s_name s) n); [congruence|reflexivity].
  - intros s'. destruct (markov _ _ _ _ _); [|discriminate]. intros E. injection E as <-. reflexivity.
  - intros o LK. cbn [update lookup]. rewrite Nat.eqb_refl, LK. eexists. split; reflexivity.
Qed.

Lemma noise_v3_spec p matching topic ego t (l : list (status G)) : NoDup (map s_name l) ->
  forall m k m' l' k', noise_v3 D p matching topic ego t m l k = Some (m', l', k') ->
  (forall s', In s' l' -> exists s, In s l /\ s_name s' = s_name s /\ lookup (s_name s) m <> None) /\
  (forall s o, In s l -> lookup (s_name s) m = Some o -> config o = ""%string -> In s l') /\
  (forall n o, lookup n m = Some o -> exists o', lookup n m' = Some o' /\ config o' = config o) /\
  (forall s, In s l -> lookup (s_name s) m = None -> exists o, lookup (s_name s) m' = Some o /\ config o = matching s).
Proof.
  intros ND. induction l as [|s l IH]; intros m k m' l' k' R; cbn [noise_v3] in R.
  - injection R as <- <- <-. split; [intros s' []|]. split; [intros s o []|]. split; [eauto|intros s []].
  - cbn [map] in ND. apply NoDup_cons_iff in ND. destruct ND as [NI ND].
    destruct (match lookup (s_name s) m with Some o => _ | None => _ end) as [[[m1 l1] k1]|] eqn:E; cbn [bind] in R; [|discriminate].
    destruct (noise_v3 D p matching topic ego t m1 l k1) as [[[m2 l2] k2]|] eqn:R2; cbn [bind] in R; [|discriminate].
    injection R as <- <- <-. destruct (IH ND _ _ _ _ _ R2) as (A & B & C0 & D0).
    assert (F : (forall n, n <> s_name s -> lookup n m1 = lookup n m) /\
                (forall s', In s' l1 -> s_name s' = s_name s /\ lookup (s_name s) m <> None) /\
                (forall o, lookup (s_name s) m = Some o -> config o = ""%string -> In s l1) /\
                (forall o, lookup (s_name s) m = Some o -> exists o', lookup (s_name s) m1 = Some o' /\ config o' = config o) /\
                (lookup (s_name s) m = None -> exists o, lookup (s_name s) m1 = Some o /\ config o = matching s)).
    { destruct (lookup (s_name s) m) as [o|] eqn:LK.
      - destruct (String.eqb_spec (config o) ""%string) as [C|C]; cbn [negb] in E.
        + injection E as <- <- <-. split; [auto|]. split; [intros s' [<-|[]]; split; [auto|discriminate]|].
          split; [intros o' O _; simpl; auto|]. split; [|discriminate].
          intros o' O. exists o'. rewrite LK. auto.
        + cbn [noise_v2] in E.
          destruct (noise_one _ _ _ _ _ _ _ _) as [[[m3 o3] k3]|] eqn:N1; cbn [bind] in E; [|discriminate].
          injection E as <- <- <-. destruct (noise_one_lookup _ _ _ _ _ _ _ _ _ _ N1) as (P1 & P2 & P3).
          split; [auto|]. split.
          * intros s' I. split; [|discriminate]. destruct o3 as [x|]; simpl in I; [destruct I as [<-|[]]; auto|contradiction].
          * split; [intros o' O; injection O as <-; intros C'; contradiction|]. split; [|discriminate].
            intros o' O. injection O as <-. apply P3. exact LK.
      - injection E as <- <- <-. split.
        + intros n NE. cbn [update lookup]. destruct (Nat.eqb_spec (s_name s) n); [congruence|reflexivity].
        + split; [intros s' []|]. split; [discriminate|]. split; [discriminate|].
          intros _. cbn [update lookup]. rewrite Nat.eqb_refl. eexists. split; reflexivity. }
    destruct F as (F1 & F2 & F3 & F4 & F5).
    assert (OTHER : forall s0, In s0 l -> s_name s0 <> s_name s).
    { intros s0 I E0. apply NI. rewrite <- E0. apply in_map. exact I. }
    split; [|split; [|split]].
    + intros s' I. apply in_app_iff in I. destruct I as [I|I].
      * destruct (F2 s' I) as [X Y]. exists s. simpl. auto.
      * destruct (A s' I) as (s0 & I0 & X & Y). exists s0. split; [simpl; auto|]. split; [auto|].
        rewrite F1 in Y; auto.
    + intros s0 o I LK C. apply in_app_iff. destruct I as [<-|I]; [left; eauto|]. right.
      apply (B s0 o I); auto. rewrite F1; auto.
    + intros n o LK. destruct (Nat.eq_dec n (s_name s)) as [->|NE].
      * destruct (F4 o LK) as (o1 & L1 & C1). destruct (C0 _ _ L1) as (o2 & L2 & C2). exists o2. split; congruence.
      * apply C0. rewrite F1; auto.
    + intros s0 [<-|I] LK.
      * destruct (F5 LK) as (o1 & L1 & C1). destruct (C0 _ _ L1) as (o2 & L2 & C2). exists o2. split; congruence.
      * apply D0; auto. rewrite F1; auto.
Qed.
End noise.
