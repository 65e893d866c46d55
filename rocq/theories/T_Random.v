(** C229-C233: random tests. *)
From Coq Require Import Reals Lra Lia List Arith Bool.
From Verif Require Import M_Random S_Random.
Import ListNotations.
Local Open Scope R_scope.

(** *** C229 *)
Lemma ordered_snoc l t : ordered (l ++ [t]) -> ordered l /\ (forall x, In x l -> x <= t).
Proof.
  intros H. remember (l ++ [t]) as k eqn:E. revert l t E.
  induction H as [| u | k u u' H IH L]; intros l t E.
  - destruct l; discriminate.
  - destruct l as [| x [| y l]]; [| discriminate | discriminate]. split; [constructor | intros x []].
  - change [u; u'] with ([u] ++ [u']) in E. rewrite app_assoc in E.
    apply app_inj_tail in E. destruct E as [<- <-]. split; [exact H |].
    intros x I. destruct (IH k u eq_refl) as (_ & B). apply in_app_or in I. destruct I as [I | [<- | []]].
    + specialize (B x I). lra.
    + exact L.
Qed.

Lemma met_snoc h e : met (h ++ [e]) = snd (collided (met h) (fst e) (snd e)).
Proof. unfold met. rewrite fold_left_app. reflexivity. Qed.

Lemma known_in npc c : known npc c = true <-> exists t, In (npc, t) c.
Proof.
  induction c as [| [n t] c IH]; cbn [known].
  - split; [discriminate | intros (t & [])].
  - destruct (Nat.eqb n npc) eqn:E.
    + apply Nat.eqb_eq in E. subst n. split; [| reflexivity]. intros _. exists t. left. reflexivity.
    + apply Nat.eqb_neq in E. rewrite IH. split; intros (u & I); exists u.
      * right. exact I.
      * destruct I as [I | I]; [| exact I]. injection I as N _. congruence.
Qed.

Lemma time_out_in c time e : In e (time_out c time) <-> In e c /\ time - snd e <= 1 / 2.
Proof.
  unfold time_out. rewrite filter_In. destruct (Rlt_dec (1 / 2) (time - snd e)).
  - split; [intros (_ & F); discriminate | intros (_ & F); lra].
  - split; intros (I & _); (split; [exact I |]); [lra | reflexivity].
Qed.

Lemma met_kept h : ordered (map snd h) ->
  (forall e, In e (met h) -> In e h) /\
  (forall n t, In (n, t) h ->
     (exists t', t <= t' /\ In (n, t') (met h)) \/ (exists u, In u (map snd h) /\ 1 / 2 < u - t)).
Proof.
  induction h as [| [m u] h IH] using rev_ind; intros O; [split; [intros e [] | intros n t []] |].
  rewrite map_app in *. cbn [map snd] in *. destruct (ordered_snoc _ _ O) as (O' & B).
  destruct (IH O') as (I1 & I2). rewrite met_snoc. cbn [fst snd]. unfold collided, put. cbn [snd]. split.
  - intros e [<- | I]; [apply in_or_app; right; left; reflexivity |].
    apply filter_In in I. destruct I as (I & _). apply time_out_in in I. apply in_or_app. left. apply I1. tauto.
  - intros n t I. apply in_app_or in I. destruct I as [I | [I | []]].
    + destruct (I2 n t I) as [(t' & L & J) | (w & J & L)].
      * destruct (Nat.eq_dec m n) as [-> | N].
        -- left. exists u. split; [| left; reflexivity]. apply B. apply in_map_iff. exists (n, t). tauto.
        -- destruct (Rle_dec (u - t') (1 / 2)) as [Q | Q].
           ++ left. exists t'. split; [exact L |]. right. apply filter_In. split.
              ** apply time_out_in. cbn [snd]. tauto.
              ** cbn [fst]. apply negb_true_iff, Nat.eqb_neq. congruence.
           ++ right. exists u. split; [apply in_or_app; right; left; reflexivity | lra].
      * right. exists w. split; [apply in_or_app; left; exact J | exact L].
    + injection I as <- <-. left. exists u. split; [lra | left; reflexivity].
Qed.

(** A collision is a new one if, and only if, every earlier one with the same entity is more than half a
    second ago. *)
Theorem C229_new h npc time : ordered (map snd h ++ [time]) ->
  (fst (collided (met h) npc time) = true <-> forall t, In (npc, t) h -> 1 / 2 < time - t).
Proof.
  intros O. destruct (ordered_snoc _ _ O) as (O' & B). destruct (met_kept h O') as (I1 & I2).
  unfold collided. cbn [fst]. rewrite negb_true_iff, <- not_true_iff_false, known_in. split.
  - intros N t I. apply Rnot_le_lt. intros L. apply N. destruct (I2 _ _ I) as [(t' & L' & J) | (u & J & L')].
    + exists t'. apply time_out_in. cbn [snd]. split; [exact J | lra].
    + specialize (B u J). lra.
  - intros H (t & I). apply time_out_in in I. cbn [snd] in I. destruct I as (I & L). specialize (H t (I1 _ I)). lra.
Qed.

Example C229_case : ordered (map snd [(1%nat, 0); (2%nat, 1)] ++ [1]) /\
  fst (collided (met [(1%nat, 0); (2%nat, 1)]) 1 1) = true /\ fst (collided (met [(1%nat, 0); (2%nat, 1)]) 2 1) = false.
Proof.
  assert (O : ordered (map snd [(1%nat, 0); (2%nat, 1)] ++ [1])).
  { cbn. apply (ordered_more [0]); [apply (ordered_more []); [constructor | lra] | lra]. }
  split; [exact O |]. split.
  - apply (C229_new _ _ _ O). intros t [[= <-] | [[=] | []]]. lra.
  - apply not_true_iff_false. rewrite (C229_new _ _ _ O). intros H.
    specialize (H 1 (or_intror (or_introl eq_refl))). lra.
Qed.

(** *** C230 *)
Lemma driven_snoc h e : driven (h ++ [e]) = snd (standing (driven h) (fst e) (snd e)).
Proof. unfold driven. rewrite fold_left_app. reflexivity. Qed.

Lemma snoc_two {A} (l l' : list A) (a b c : A) : l ++ [a; b] = l' ++ [c] -> l ++ [a] = l' /\ b = c.
Proof.
  change [a; b] with ([a] ++ [b]). rewrite app_assoc. intros E. apply app_inj_tail in E. exact E.
Qed.

Lemma gapless_snoc l t t' : gapless ((l ++ [t]) ++ [t']) -> gapless (l ++ [t]) /\ t' - t <= 2.
Proof.
  intros H. remember ((l ++ [t]) ++ [t']) as k eqn:E. destruct H as [u | k u u' H L].
  - exfalso. destruct l as [| x [| y l]]; discriminate.
  - apply snoc_two in E. destruct E as (E & ->). rewrite <- E. split; [exact H |].
    apply app_inj_tail in E. destruct E as (_ & ->). exact L.
Qed.

Lemma split_snoc {A} (h h1 h2 : list A) (e x : A) : h ++ [e] = h1 ++ x :: h2 ->
  (h2 = [] /\ x = e /\ h1 = h) \/ (exists h3, h2 = h3 ++ [e] /\ h = h1 ++ x :: h3).
Proof.
  intros E. destruct h2 as [| y h2'] using rev_ind.
  - left. apply app_inj_tail in E. intuition.
  - right. exists h2'. change (x :: h2' ++ [y]) with ((x :: h2') ++ [y]) in E. rewrite app_assoc in E.
    apply app_inj_tail in E. destruct E as (-> & ->). tauto.
Qed.

Lemma driven_counts h e : ordered (map fst (h ++ [e])) -> gapless (map fst (h ++ [e])) ->
  exists m, driven (h ++ [e]) = standstill (fst e - m) (Some (fst e)) /\
    (exists h1 x h2, h ++ [e] = h1 ++ x :: h2 /\ fst x = m /\ Forall slow h2) /\
    (forall h1 x h2, h ++ [e] = h1 ++ x :: h2 -> Forall slow h2 -> m <= fst x).
Proof.
  revert e. induction h as [| d h IH] using rev_ind; intros e O G.
  - exists (fst e). cbn. split; [f_equal; ring |]. split.
    + exists [], e, []. split; [reflexivity |]. split; [reflexivity | constructor].
    + intros h1 x h2 E _. destruct h1 as [| a [| b h1]]; [injection E as <- _; lra | discriminate | discriminate].
  - rewrite !map_app in O, G. cbn [map] in O, G. destruct (ordered_snoc _ _ O) as (O' & B).
    destruct (gapless_snoc _ _ _ G) as (G' & D).
    destruct (IH d) as (m & E & (h1 & x & h2 & S1 & S2 & S3) & M).
    { rewrite map_app. exact O'. } { rewrite map_app. exact G'. }
    rewrite driven_snoc, E. unfold standing. cbn [last_time counted].
    destruct (Rlt_dec 2 (fst e - fst d)) as [L | L]; [lra |]. cbn [snd].
    destruct (Rlt_dec (snd e) (1 / 100)) as [V | V].
    + exists m. split; [f_equal; ring |]. split.
      * exists h1, x, (h2 ++ [e]). split; [rewrite S1, <- app_assoc; reflexivity |]. split; [exact S2 |].
        apply Forall_app. split; [exact S3 | constructor; [exact V | constructor]].
      * intros k1 y k2 K F. apply split_snoc in K. destruct K as [(-> & -> & ->) | (k3 & -> & K)].
        -- assert (I : In (fst x) (map fst h ++ [fst d])).
           { change [fst d] with (map (@fst R R) [d]). rewrite <- map_app, S1. apply in_map. apply in_elt. }
           specialize (B _ I). lra.
        -- apply Forall_app in F. apply (M k1 y k3 K). tauto.
    + exists (fst e). split; [f_equal; ring |]. split.
      * exists (h ++ [d]), e, []. split; [reflexivity |]. split; [reflexivity | constructor].
      * intros k1 y k2 K F. apply split_snoc in K. destruct K as [(-> & -> & ->) | (k3 & -> & K)]; [lra |].
        exfalso. apply Forall_app in F. destruct F as (_ & F). apply Forall_inv in F. unfold slow in F. lra.
Qed.

(** If frames are never more than two seconds apart: a standstill is found if, and only if, the speed was
    below 0.01 in every frame since one that is more than ten seconds ago. *)
Theorem C230_found h e time speed_ : ordered (map fst (h ++ [e]) ++ [time]) -> gapless (map fst (h ++ [e]) ++ [time]) ->
  (fst (standing (driven (h ++ [e])) time speed_) = true <->
   speed_ < 1 / 100 /\ slow_since (h ++ [e]) (time - 10)).
Proof.
  intros O G. destruct (ordered_snoc _ _ O) as (O' & B). rewrite map_app in G. cbn [map] in G.
  destruct (gapless_snoc _ _ _ G) as (G' & D).
  destruct (driven_counts h e O') as (m & -> & (h1 & x & h2 & S1 & S2 & S3) & M); [rewrite map_app; exact G' |].
  unfold standing. cbn [last_time counted]. destruct (Rlt_dec 2 (time - fst e)) as [L | _]; [lra |]. cbn [fst].
  destruct (Rlt_dec speed_ (1 / 100)) as [V | V].
  - destruct (Rlt_dec 10 (fst e - m + (time - fst e))) as [T | T].
    + split; [| reflexivity]. intros _. split; [exact V |]. exists h1, x, h2. split; [exact S1 |].
      split; [lra | exact S3].
    + split; [discriminate |]. intros (_ & k1 & y & k2 & K & L & F). specialize (M _ _ _ K F). lra.
  - destruct (Rlt_dec 10 0) as [T | _]; [lra |]. split; [discriminate | intros (W & _); lra].
Qed.

Lemma stand_none c t v : snd (standing (standstill c None) t v) = standstill c (Some t).
Proof. reflexivity. Qed.
Lemma stand_slow c l t v : t - l <= 2 -> v < 1 / 100 ->
  snd (standing (standstill c (Some l)) t v) = standstill (c + (t - l)) (Some t).
Proof.
  intros L V. unfold standing. cbn [last_time counted]. destruct (Rlt_dec 2 (t - l)); [lra |].
  destruct (Rlt_dec v (1 / 100)); [reflexivity | lra].
Qed.
Lemma stand_gap c l t v : 2 < t - l -> snd (standing (standstill c (Some l)) t v) = standstill c None.
Proof.
  intros L. unfold standing. cbn [last_time counted]. destruct (Rlt_dec 2 (t - l)); [reflexivity | lra].
Qed.

(** After a gap the count goes on, whatever the speed in the meantime. *)
Theorem C230_gap_refuted : exists h time speed_,
  ordered (map fst h ++ [time]) /\ fst (standing (driven h) time speed_) = true /\
  ~ slow_since h (time - 10).
Proof.
  exists [(0, 0); (2, 0); (4, 0); (6, 0); (8, 0); (10, 0); (13, 5); (14, 5)], 16, 0. split; [| split].
  - cbn. apply (ordered_more [0; 2; 4; 6; 8; 10; 13]); [| lra]. apply (ordered_more [0; 2; 4; 6; 8; 10]); [| lra].
    apply (ordered_more [0; 2; 4; 6; 8]); [| lra].
    apply (ordered_more [0; 2; 4; 6]); [| lra]. apply (ordered_more [0; 2; 4]); [| lra].
    apply (ordered_more [0; 2]); [| lra]. apply (ordered_more [0]); [| lra]. apply (ordered_more []); [| lra]. constructor.
  - unfold driven. cbn [fold_left fst snd]. unfold no_standstill.
    rewrite stand_none. do 5 (rewrite stand_slow by lra). rewrite stand_gap by lra. rewrite stand_none.
    unfold standing. cbn [last_time counted]. destruct (Rlt_dec 2 (16 - 14)); [lra |]. cbn [fst].
    destruct (Rlt_dec 0 (1 / 100)); [| lra].
    match goal with |- context [Rlt_dec 10 ?x] => destruct (Rlt_dec 10 x); [reflexivity | lra] end.
  - intros (h1 & x & h2 & E & L & F).
    do 8 (destruct h1 as [| ? h1]; [injection E as <- <-; cbn [fst] in L; try lra;
      repeat match goal with H : Forall slow (_ :: _) |- _ => apply Forall_cons_iff in H; destruct H as [? ?] end;
      unfold slow in *; cbn [snd] in *; lra | injection E as _ E]);
    try (destruct h1; discriminate).
Qed.

(** Driving backwards counts as standing. *)
Theorem C230_backwards_refuted : exists h time speed_,
  (forall e, In e h -> snd e = -5) /\ speed_ = -5 /\
  fst (standing (driven h) time speed_) = true.
Proof.
  exists [(0, -5); (2, -5); (4, -5); (6, -5); (8, -5); (10, -5)], 11, (-5). split; [| split; [reflexivity |]].
  - intros e I. cbn in I. repeat (destruct I as [<- | I]; [reflexivity |]). destruct I.
  - change [(0, -5); (2, -5); (4, -5); (6, -5); (8, -5); (10, -5)]
      with ([(0, -5); (2, -5); (4, -5); (6, -5); (8, -5)] ++ [(10, -5)]).
    apply C230_found.
    + cbn. apply (ordered_more [0; 2; 4; 6; 8]); [| lra]. apply (ordered_more [0; 2; 4; 6]); [| lra].
      apply (ordered_more [0; 2; 4]); [| lra]. apply (ordered_more [0; 2]); [| lra].
      apply (ordered_more [0]); [| lra]. apply (ordered_more []); [| lra]. constructor.
    + cbn. apply (gapless_more [0; 2; 4; 6; 8]); [| lra]. apply (gapless_more [0; 2; 4; 6]); [| lra].
      apply (gapless_more [0; 2; 4]); [| lra]. apply (gapless_more [0; 2]); [| lra].
      apply (gapless_more [0]); [| lra]. apply (gapless_more []); [| lra]. constructor.
    + split; [lra |]. exists [], (0, -5), [(2, -5); (4, -5); (6, -5); (8, -5); (10, -5)].
      split; [reflexivity |]. split; [cbn; lra |]. repeat constructor; unfold slow; cbn [snd]; lra.
Qed.

Example C230_case : ordered (map fst ([(0, 0)] ++ [(1, 0)]) ++ [2]) /\ gapless (map fst ([(0, 0)] ++ [(1, 0)]) ++ [2]).
Proof.
  split; cbn.
  - apply (ordered_more [0]); [| lra]. apply (ordered_more []); [| lra]. constructor.
  - apply (gapless_more [0]); [| lra]. apply (gapless_more []); [| lra]. constructor.
Qed.

(** *** C231 *)
Definition timed_out (timeout : R) (f : Frame) : Prop := exists t, now f = Some t /\ timeout <= t.
Definition stands (e : Executor) (f : Frame) : Prop := fst (standing (still e) (status_time f) (speed f)) = true.

Lemma timed_out_dec timeout f :
  match (match now f with Some t => if Rle_dec timeout t then true else false | None => false end) with
  | true => timed_out timeout f | false => ~ timed_out timeout f end.
Proof.
  unfold timed_out. destruct (now f) as [t |].
  - destruct (Rle_dec timeout t) as [L | L]; [eauto |]. intros (u & [= <-] & M). lra.
  - intros (u & [=] & _).
Qed.

(** When a test is over *)
Theorem C231_completed timeout e f :
  completed (update timeout e f) = true <->
  completed e = true \/ (at_goal f = true /\ now f <> None) \/ timed_out timeout f \/ stands e f \/ raised f <> None.
Proof.
  pose proof (timed_out_dec timeout f) as T. unfold update, stands.
  destruct (match now f with Some t => if Rle_dec timeout t then true else false | None => false end).
  - split; [intros _; tauto | reflexivity].
  - destruct (match now f with Some t => collide (collisions e) t (touching f) | None => ([], collisions e) end) as [r c].
    destruct (standing (still e) (status_time f) (speed f)) as [b s]. cbn [fst].
    destruct (raised f) as [[] |]; cbn [handled completed].
    1-4: split; [intros _; right; right; right; right; discriminate | reflexivity].
    destruct b; [split; [tauto | reflexivity] |].
    destruct (now f) as [t |], (at_goal f); split; intros H; try tauto; try (intuition congruence).
Qed.

Lemma collide_reports c t npcs r c' : collide c t npcs = (r, c') ->
  forall x, In x r -> exists n, x = Collision n /\ In n npcs.
Proof.
  revert c r c'. induction npcs as [| n npcs IH]; intros c r c'; cbn [collide].
  - intros [= <- <-] x [].
  - destruct (collided c n t) as [new c1]. destruct (collide c1 t npcs) as [r1 c2] eqn:E.
    intros [= <- <-] x I. destruct new.
    + destruct I as [<- | I]; [exists n; split; [reflexivity | left; reflexivity] |].
      destruct (IH _ _ _ E x I) as (m & -> & J). exists m. split; [reflexivity | right; exact J].
    + destruct (IH _ _ _ E x I) as (m & -> & J). exists m. split; [reflexivity | right; exact J].
Qed.

(** What a frame adds to the reports *)
Theorem C231_reports timeout e f : exists new, reports (update timeout e f) = reports e ++ new /\
  (In Timeout new <-> timed_out timeout f /\ at_goal f = false) /\
  (In StandStill new <-> ~ timed_out timeout f /\ stands e f /\ at_goal f = false) /\
  (In Exception new <-> ~ timed_out timeout f /\ (raised f = Some AutowareError \/ raised f = Some SimulatorError)) /\
  (forall n, In (Collision n) new -> ~ timed_out timeout f /\ In n (touching f)).
Proof.
  pose proof (timed_out_dec timeout f) as T. unfold update, stands.
  destruct (match now f with Some t => if Rle_dec timeout t then true else false | None => false end).
  - exists (if at_goal f then [] else [Timeout]). split; [reflexivity |].
    destruct (at_goal f); cbn [In]; intuition congruence.
  - destruct (match now f with Some t => collide (collisions e) t (touching f) | None => ([], collisions e) end) as [r c] eqn:C.
    assert (R : forall x, In x r -> exists n, x = Collision n /\ In n (touching f)).
    { destruct (now f) as [t |]; [exact (collide_reports _ _ _ _ _ C) | injection C as <- <-; intros x []]. }
    assert (N : ~ In Timeout r /\ ~ In StandStill r /\ ~ In Exception r).
    { split; [| split]; intros I; destruct (R _ I) as (n & [=] & _). }
    destruct N as (N1 & N2 & N3).
    assert (K : forall n, In (Collision n) r -> In n (touching f)).
    { intros n I. destruct (R _ I) as (m & [= <-] & J). exact J. }
    destruct (standing (still e) (status_time f) (speed f)) as [b s]. cbn [fst].
    set (x := if b then if at_goal f then [] else [StandStill] else []).
    assert (X : (In StandStill x <-> b = true /\ at_goal f = false) /\ ~ In Timeout x /\ ~ In Exception x /\
                forall n, ~ In (Collision n) x).
    { unfold x. destruct b, (at_goal f); cbn [In]; intuition congruence. }
    destruct X as (X1 & X2 & X3 & X4).
    exists (r ++ x ++ match raised f with Some (AutowareError | SimulatorError) => [Exception] | _ => [] end).
    split; [destruct (raised f) as [[] |]; cbn [handled reports]; rewrite <- ?app_assoc, ?app_nil_r; reflexivity |].
    split; [| split; [| split]].
    + rewrite !in_app_iff. destruct (raised f) as [[] |]; cbn [In]; intuition congruence.
    + rewrite !in_app_iff, X1. destruct (raised f) as [[] |]; cbn [In]; intuition congruence.
    + rewrite !in_app_iff. destruct (raised f) as [[] |]; cbn [In]; intuition congruence.
    + intros n. rewrite !in_app_iff. intros [I | [I | I]]; [auto | destruct (X4 n I) |].
      destruct (raised f) as [[] |]; cbn [In] in I; intuition congruence.
Qed.

(** Collisions that are new are reported. *)
Theorem C231_collision timeout e f t n : now f = Some t -> t < timeout -> NoDup (touching f) ->
  In n (touching f) -> (forall u, In (n, u) (collisions e) -> 1 / 2 < t - u) ->
  In (Collision n) (reports (update timeout e f)).
Proof.
  intros E L D I H. unfold update. rewrite E. destruct (Rle_dec timeout t) as [M | _]; [lra |].
  destruct (collide (collisions e) t (touching f)) as [r c] eqn:C.
  destruct (standing (still e) (status_time f) (speed f)) as [b s].
  assert (J : In (Collision n) r).
  { revert D I H C. generalize (collisions e). generalize (touching f). intros l. revert r c.
    induction l as [| m l IH]; intros r c k D I H C; [destruct I |]. cbn [collide] in C.
    destruct (collided k m t) as [new c1] eqn:F. destruct (collide c1 t l) as [r1 c2] eqn:G.
    injection C as <- <-. unfold collided in F. injection F as F1 F2. apply NoDup_cons_iff in D. destruct D as (D1 & D2).
    destruct I as [-> | I].
    - assert (new = true) as ->.
      { rewrite <- F1. apply negb_true_iff, not_true_iff_false. rewrite known_in. intros (u & J).
        apply time_out_in in J. cbn [snd] in J. destruct J as (J & Q). specialize (H u J). lra. }
      left. reflexivity.
    - assert (Q : In (Collision n) r1).
      { apply (IH r1 c2 c1 D2 I); [| exact G]. intros u J. rewrite <- F2 in J. destruct J as [J | J].
        - injection J as -> _. tauto.
        - apply filter_In in J. destruct J as (J & _). apply time_out_in in J. apply H. tauto. }
      destruct new; [right; exact Q | exact Q]. }
  destruct (raised f) as [[] |]; cbn [handled reports]; rewrite !in_app_iff; tauto.
Qed.

(** What was touched and how fast the ego was is remembered for the frames that follow, so that C229 and
    C230 speak of the whole test. *)
Lemma collide_met npcs : forall h t, snd (collide (met h) t npcs) = met (h ++ map (fun n => (n, t)) npcs).
Proof.
  induction npcs as [| n npcs IH]; intros h t; cbn [collide map].
  - rewrite app_nil_r. reflexivity.
  - specialize (IH (h ++ [(n, t)]) t). rewrite <- app_assoc in IH. cbn [app] in IH. rewrite <- IH.
    assert (M : met (h ++ [(n, t)]) = snd (collided (met h) n t)).
    { unfold met. rewrite fold_left_app. reflexivity. }
    rewrite M. destruct (collided (met h) n t) as [new c]. cbn [snd]. destruct (collide c t npcs). reflexivity.
Qed.
Theorem C231_remembered timeout e f h k t : now f = Some t -> t < timeout ->
  collisions e = met h -> still e = driven k ->
  collisions (update timeout e f) = met (h ++ map (fun n => (n, t)) (touching f)) /\
  still (update timeout e f) = driven (k ++ [(status_time f, speed f)]).
Proof.
  intros E L H K. unfold update. rewrite E, H, K. destruct (Rle_dec timeout t) as [M | _]; [lra |].
  rewrite <- collide_met. destruct (collide (met h) t (touching f)) as [r c]. cbn [snd].
  assert (D : driven (k ++ [(status_time f, speed f)]) = snd (standing (driven k) (status_time f) (speed f))).
  { unfold driven. rewrite fold_left_app. reflexivity. }
  rewrite D. destruct (standing (driven k) (status_time f) (speed f)) as [b s]. cbn [snd].
  destruct (raised f) as [[] |]; split; reflexivity.
Qed.

(** A test that is ended by some error may have nothing to report. *)
Theorem C231_silent_refuted : exists f timeout,
  raised f <> None /\ completed (update timeout fresh f) = true /\ reports (update timeout fresh f) = [].
Proof.
  exists (frame (Some 0) false [] 0 0 (Some RuntimeError)), 10. split; [discriminate |].
  unfold update. cbn [now at_goal touching status_time speed raised]. destruct (Rle_dec 10 0); [lra |].
  split; reflexivity.
Qed.

(** A collision in the frame of the timeout is not reported. *)
Theorem C231_last_refuted : exists f timeout,
  In 1%nat (touching f) /\ reports (update timeout fresh f) = [].
Proof.
  exists (frame (Some 10) true [1%nat] 10 0 None), 10. split; [left; reflexivity |].
  unfold update. cbn [now at_goal touching status_time speed raised]. destruct (Rle_dec 10 10); [reflexivity | lra].
Qed.

Example C231_case : let f := frame (Some 1) false [1%nat; 2%nat] 1 0 None in
  ~ timed_out 10 f /\ NoDup (touching f) /\ In (Collision 2) (reports (update 10 fresh f)).
Proof.
  cbv zeta. split; [intros (t & [= <-] & L); lra |].
  assert (D : NoDup [1%nat; 2%nat]) by (repeat constructor; cbn; intuition congruence).
  split; [exact D |].
  apply (C231_collision 10 fresh (frame (Some 1) false [1%nat; 2%nat] 1 0 None) 1 2 eq_refl); [lra | exact D | right; left; reflexivity |].
  intros u [].
Qed.

(** *** C232 *)
Section Lanes.
  Variable len : nat -> R.
  Variables following previous : nat -> list nat.

  Lemma search_all (P : Item -> Prop) (Q : Part -> Prop) :
    (forall i, P i -> Forall P (fst (explore len following previous i)) /\
                      Forall Q (snd (explore len following previous i))) ->
    forall fuel queue parts, Forall P queue -> search len following previous fuel queue = Some parts -> Forall Q parts.
  Proof.
    intros S. induction fuel as [| fuel IH]; intros [| i queue] parts F; cbn [search].
    1, 3: intros [= <-]; constructor.
    - discriminate.
    - apply Forall_cons_iff in F. destruct F as (Pi & F). destruct (S i Pi) as (S1 & S2).
      destruct (explore len following previous i) as [more ps]. cbn [fst snd] in S1, S2.
      destruct (search len following previous fuel (queue ++ more)) as [rest |] eqn:E; [| discriminate].
      intros [= <-]. apply Forall_app. split; [exact S2 |]. apply (IH (queue ++ more)); [| exact E].
      apply Forall_app. tauto.
  Qed.

  Lemma origins (P : Item -> Prop) l s opposite besides lo hi :
    (forall l0 s0, origin l s opposite besides l0 s0 -> P (item l0 lo hi s0 Forward) /\ P (item l0 lo hi s0 Backward)) ->
    Forall P (both l s lo hi ++ match opposite with Some (l', s') => both l' s' lo hi | None => [] end ++
              flat_map (fun l' => both l' s lo hi) besides).
  Proof.
    intros H. apply Forall_app. split; [| apply Forall_app; split].
    - destruct (H l s) as (A & B); [left; tauto |]. repeat constructor; assumption.
    - destruct opposite as [[l' s'] |]; [| constructor].
      destruct (H l' s') as (A & B); [right; left; reflexivity |]. repeat constructor; assumption.
    - apply Forall_forall. intros i I. apply in_flat_map in I. destruct I as (l' & I & J).
      destruct (H l' s) as (A & B); [right; right; tauto |]. destruct J as [<- | [<- | []]]; assumption.
  Qed.

  (** All parts found are between the distances asked for, by travelling ahead or back. *)
  Theorem C232_distance fuel l s opposite besides lo hi parts :
    lanes_within len following previous fuel l s opposite besides lo hi = Some parts ->
    forall p, In p parts -> exists l0 s0 d, origin l s opposite besides l0 s0 /\
      ((ahead_by len following l0 s0 (part_lane p) d /\ forall x, within p x -> lo <= d + x <= hi) \/
       (behind_by len previous l0 s0 (part_lane p) d /\ forall x, within p x -> lo <= d - x <= hi)).
  Proof.
    unfold lanes_within. destruct (Rlt_dec hi lo) as [_ | O]; [discriminate |]. intros E.
    apply Forall_forall. revert E. apply search_all with (P := fun i => exists l0 s0 d,
      origin l s opposite besides l0 s0 /\
      match direction i with
      | Forward => ahead_by len following l0 s0 (lane i) d /\ lo - d <= pose_s i + min_remaining i /\
                   pose_s i + max_remaining i <= hi - d
      | Backward => behind_by len previous l0 s0 (lane i) d /\ lo <= d - pose_s i + min_remaining i /\
                    d - pose_s i + max_remaining i <= hi
      end).
    - intros [i_l i_lo i_hi i_s []] (l0 & s0 & d & OR & H1 & H2 & H3);
        cbn [lane min_remaining max_remaining pose_s direction] in *; unfold explore;
        cbn [lane min_remaining max_remaining pose_s direction fst snd].
      + destruct (Rlt_dec (len i_l) (i_s + i_hi)) as [B | B]; split.
        * apply Forall_forall. intros j J. apply in_map_iff in J. destruct J as (n & <- & I).
          exists l0, s0, (d + len i_l). cbn [lane min_remaining max_remaining pose_s direction].
          split; [exact OR |]. split; [apply ahead_next; assumption |].
          pose proof (Rmax_r 0 (i_lo - (len i_l - i_s))). rewrite (Rmax_right 0 (i_hi - (len i_l - i_s))) by lra. lra.
        * destruct (Rlt_dec (i_s + i_lo) (len i_l)); [| constructor]. constructor; [| constructor].
          exists l0, s0, d. split; [exact OR |]. left. split; [exact H1 |]. unfold within. cbn [start_s end_s]. intros x X. lra.
        * constructor.
        * destruct (Rlt_dec (i_s + i_lo) (len i_l)); [| constructor]. constructor; [| constructor].
          exists l0, s0, d. split; [exact OR |]. left. split; [exact H1 |]. unfold within. cbn [start_s end_s]. intros x X. lra.
      + destruct (Rlt_dec (i_s - i_hi) 0) as [B | B]; split.
        * apply Forall_forall. intros j J. apply in_map_iff in J. destruct J as (n & <- & I).
          exists l0, s0, (d + len n). cbn [lane min_remaining max_remaining pose_s direction].
          split; [exact OR |]. split; [apply (behind_next _ _ _ _ i_l); assumption |].
          pose proof (Rmax_r 0 (i_lo - i_s)). rewrite (Rmax_right 0 (i_hi - i_s)) by lra. lra.
        * destruct (Rlt_dec 0 (i_s - i_lo)); [| constructor]. constructor; [| constructor].
          exists l0, s0, d. split; [exact OR |]. right. split; [exact H1 |]. unfold within. cbn [start_s end_s]. intros x X. lra.
        * constructor.
        * destruct (Rlt_dec 0 (i_s - i_lo)); [| constructor]. constructor; [| constructor].
          exists l0, s0, d. split; [exact OR |]. right. split; [exact H1 |]. unfold within. cbn [start_s end_s]. intros x X. lra.
    - apply origins. intros l0 s0 OR. split.
      + exists l0, s0, (- s0). split; [exact OR |]. cbn. split; [constructor | lra].
      + exists l0, s0, s0. split; [exact OR |]. cbn. split; [constructor | lra].
  Qed.

  (** If the search starts within lanelets, the parts found are within lanelets. *)
  Theorem C232_inside fuel l s opposite besides lo hi parts :
    (forall n, 0 <= len n) -> 0 <= lo ->
    (forall l0 s0, origin l s opposite besides l0 s0 -> 0 <= s0 <= len l0) ->
    lanes_within len following previous fuel l s opposite besides lo hi = Some parts ->
    forall p, In p parts -> 0 <= start_s p <= end_s p /\ end_s p <= len (part_lane p).
  Proof.
    intros LP LO OR. unfold lanes_within. destruct (Rlt_dec hi lo) as [_ | O]; [discriminate |]. intros E.
    apply Forall_forall. revert E.
    apply search_all with (P := fun i => 0 <= pose_s i <= len (lane i) /\ 0 <= min_remaining i <= max_remaining i).
    - intros [i_l i_lo i_hi i_s []] (H1 & H2); cbn [lane min_remaining max_remaining pose_s direction] in *;
        unfold explore; cbn [lane min_remaining max_remaining pose_s direction fst snd].
      + split.
        * destruct (Rlt_dec (len i_l) (i_s + i_hi)) as [B | B]; [| constructor].
          apply Forall_forall. intros j J. apply in_map_iff in J. destruct J as (n & <- & I).
          cbn [lane min_remaining max_remaining pose_s]. specialize (LP n). split; [lra |].
          split; [apply Rmax_l | apply Rle_max_compat_l; lra].
        * destruct (Rlt_dec (i_s + i_lo) (len i_l)); [| constructor]. constructor; [| constructor].
          cbn [start_s end_s part_lane]. destruct (Rlt_dec (len i_l) (i_s + i_hi)); lra.
      + split.
        * destruct (Rlt_dec (i_s - i_hi) 0) as [B | B]; [| constructor].
          apply Forall_forall. intros j J. apply in_map_iff in J. destruct J as (n & <- & I).
          cbn [lane min_remaining max_remaining pose_s]. specialize (LP n). split; [lra |].
          split; [apply Rmax_l | apply Rle_max_compat_l; lra].
        * destruct (Rlt_dec 0 (i_s - i_lo)); [| constructor]. constructor; [| constructor].
          cbn [start_s end_s part_lane]. destruct (Rlt_dec (i_s - i_hi) 0); lra.
    - apply origins. intros l0 s0 Q. specialize (OR l0 s0 Q). cbn. split; lra.
  Qed.

  (** The number of rounds that a lanelet of the queue costs *)
  Inductive costs : Item -> nat -> Prop :=
    | costs_more i ns : cost_all (fst (explore len following previous i)) ns -> costs i (S (list_sum ns))
  with cost_all : list Item -> list nat -> Prop :=
    | cost_nil : cost_all [] []
    | cost_cons i n q ns : costs i n -> cost_all q ns -> cost_all (i :: q) (n :: ns).

  Lemma cost_app q ns q' ns' : cost_all q ns -> cost_all q' ns' -> cost_all (q ++ q') (ns ++ ns').
  Proof. intros A B. induction A; [exact B | cbn; constructor; auto]. Qed.

  Lemma search_ends fuel q ns : cost_all q ns -> list_sum ns = fuel ->
    exists parts, search len following previous fuel q = Some parts.
  Proof.
    revert q ns. induction fuel as [| fuel IH]; intros q ns C E.
    - destruct C as [| i n q ns [? ?] _]; [exists []; reflexivity | discriminate].
    - destruct C as [| i n q ns C1 C2]; [exists []; reflexivity |]. cbn [search].
      destruct C1 as [i ms C1]. destruct (explore len following previous i) as [more ps]. cbn [fst] in C1.
      destruct (IH (q ++ more) (ns ++ ms)) as (rest & ->); [apply cost_app; assumption | | eexists; reflexivity].
      rewrite list_sum_app. assert (E' : (S (list_sum ms) + list_sum ns = S fuel)%nat) by exact E. lia.
  Qed.

  Lemma cost_forall q : (forall i, In i q -> exists n, costs i n) -> exists ns, cost_all q ns.
  Proof.
    induction q as [| i q IH]; intros H; [exists []; constructor |].
    destruct (H i (or_introl eq_refl)) as (n & C). destruct IH as (ns & D); [intros j J; apply H; right; exact J |].
    exists (n :: ns). constructor; assumption.
  Qed.

  Lemma costs_by i : (forall j, In j (fst (explore len following previous i)) -> exists n, costs j n) -> exists n, costs i n.
  Proof. intros H. destruct (cost_forall _ H) as (ns & C). exists (S (list_sum ns)). constructor. exact C. Qed.

  (** The search ends if no lanelet is shorter than some length. *)
  Theorem C232_ends shortest l s opposite besides lo hi :
    0 < shortest -> (forall n, shortest <= len n) -> lo <= hi ->
    exists fuel parts, lanes_within len following previous fuel l s opposite besides lo hi = Some parts.
  Proof.
    intros P LP O.
    assert (L : forall k i, max_remaining i <= INR k * shortest ->
              pose_s i = (match direction i with Forward => 0 | Backward => len (lane i) end) -> exists n, costs i n).
    { induction k as [| k IH]; intros [i_l i_lo i_hi i_s []] M S; cbn [max_remaining pose_s direction lane] in M, S;
        subst i_s; apply costs_by; unfold explore; cbn [lane min_remaining max_remaining pose_s direction fst];
        specialize (LP i_l); intros j J.
      - cbn in M. destruct (Rlt_dec (len i_l) (0 + i_hi)); [lra | destruct J].
      - cbn in M. destruct (Rlt_dec (len i_l - i_hi) 0); [lra | destruct J].
      - destruct (Rlt_dec (len i_l) (0 + i_hi)); [| destruct J]. apply in_map_iff in J. destruct J as (n & <- & I).
        apply IH; cbn [max_remaining pose_s direction lane]; [| reflexivity]. rewrite S_INR in M.
        rewrite Rmax_right by lra. lra.
      - destruct (Rlt_dec (len i_l - i_hi) 0); [| destruct J]. apply in_map_iff in J. destruct J as (n & <- & I).
        apply IH; cbn [max_remaining pose_s direction lane]; [| reflexivity]. rewrite S_INR in M.
        rewrite Rmax_right by lra. lra. }
    assert (F : forall x, exists k, x <= INR k * shortest).
    { intros x. exists (Z.to_nat (up (x / shortest))). destruct (archimed (x / shortest)) as (A & _).
      assert (B : x / shortest <= INR (Z.to_nat (up (x / shortest)))).
      { rewrite INR_IZR_INZ. apply Rle_trans with (IZR (up (x / shortest))); [lra |]. apply IZR_le. lia. }
      apply (Rmult_le_compat_r shortest) in B; [| lra]. replace (x / shortest * shortest) with x in B by (field; lra). exact B. }
    assert (A : forall i, exists n, costs i n).
    { intros [i_l i_lo i_hi i_s []]; apply costs_by; unfold explore;
        cbn [lane min_remaining max_remaining pose_s direction fst]; intros j J.
      - destruct (Rlt_dec (len i_l) (i_s + i_hi)); [| destruct J]. apply in_map_iff in J. destruct J as (n & <- & I).
        destruct (F (Rmax 0 (i_hi - (len i_l - i_s)))) as (k & K). apply (L k); [exact K | reflexivity].
      - destruct (Rlt_dec (i_s - i_hi) 0); [| destruct J]. apply in_map_iff in J. destruct J as (n & <- & I).
        destruct (F (Rmax 0 (i_hi - i_s))) as (k & K). apply (L k); [exact K | reflexivity]. }
    unfold lanes_within. destruct (Rlt_dec hi lo) as [N | _]; [lra |].
    match goal with |- exists fuel parts, search _ _ _ _ ?q = _ => destruct (cost_forall q (fun i _ => A i)) as (ns & C) end.
    exists (list_sum ns). apply (search_ends _ _ ns C eq_refl).
  Qed.
End Lanes.

(** Beside a shorter lanelet parts are found that it does not have. *)
Theorem C232_beside_refuted : exists len fuel parts p,
  (forall n : nat, 0 < len n) /\
  lanes_within len (fun _ => []) (fun _ => []) fuel 0 9 None [1%nat] 1 3 = Some parts /\
  0 <= 9 <= len 0%nat /\ In p parts /\ len (part_lane p) < start_s p.
Proof.
  exists (fun n => match n with O => 10 | _ => 5 end).
  exists 4%nat. eexists. exists (part 1 6 8). split; [intros [| n]; lra |]. split; [| split; [lra |]].
  - unfold lanes_within. destruct (Rlt_dec 3 1); [lra |]. cbn [both app flat_map search].
    unfold explore. cbn [lane min_remaining max_remaining pose_s direction app].
    replace (9 + 3) with 12 by ring. replace (9 + 1) with 10 by ring.
    replace (9 - 3) with 6 by ring. replace (9 - 1) with 8 by ring.
    destruct (Rlt_dec 10 12); [| lra]. destruct (Rlt_dec 10 10); [lra |].
    destruct (Rlt_dec 6 0); [lra |]. destruct (Rlt_dec 0 8); [| lra].
    destruct (Rlt_dec 5 12); [| lra]. destruct (Rlt_dec 10 5); [lra |]. cbn [map app search]. reflexivity.
  - split; [cbn [app]; right; left; reflexivity |]. cbn [part_lane start_s]. lra.
Qed.

Example C232_case : exists fuel parts,
  lanes_within (fun _ => 10) (fun n => [S n]) (fun n => [pred n]) fuel 5 1 None [] 20 25 = Some parts.
Proof. apply (C232_ends _ _ _ 10); intros; lra. Qed.

(** *** C233 *)
Section Choice.
  Variable distance : Pose -> Pose -> R.
  Variable pick : nat -> nat -> nat.
  Variable share : nat -> R.

  Lemma nearest_all poses p gap :
    match nearest distance poses p with Some d => gap < d | None => True end ->
    forall q, In q poses -> gap < distance q p.
  Proof.
    intros H. assert (E : match nearest distance poses p with Some d => forall q, In q poses -> d <= distance q p
                                                            | None => poses = [] end).
    { clear H. induction poses as [| r poses IH]; cbn [nearest]; [reflexivity |].
      destruct (nearest distance poses p) as [d |].
      - intros q [<- | I]; [apply Rmin_l |]. apply Rle_trans with d; [apply Rmin_r | exact (IH q I)].
      - subst poses. intros q [<- | []]. lra. }
    destruct (nearest distance poses p) as [d |].
    - intros q I. specialize (E q I). lra.
    - subst poses. intros q [].
  Qed.

  Lemma pose_in_parts parts k p : (forall k, 0 <= share k < 1) -> (forall q, In q parts -> start_s q <= end_s q) ->
    pose_in pick share parts k = Some p -> in_parts parts p.
  Proof.
    intros H W. unfold pose_in. destruct (nth_error parts (pick k (length parts))) as [q |] eqn:E; [| discriminate].
    intros [= <-]. exists q. apply nth_error_In in E. split; [exact E |]. split; [reflexivity |].
    unfold within. cbn [snd]. specialize (H k). specialize (W q E). set (w := end_s q - start_s q).
    assert (0 <= w) by (unfold w; lra). assert (0 <= w * share k) by (apply Rmult_le_pos; lra).
    assert (w * share k <= w * 1) by (apply Rmult_le_compat_l; lra). unfold w in *. lra.
  Qed.

  Lemma apart_from_apart attempts k poses gap parts p k' :
    (forall k, 0 <= share k < 1) -> (forall q, In q parts -> start_s q <= end_s q) ->
    apart_from distance pick share attempts k poses gap parts = Some (p, k') ->
    in_parts parts p /\ forall q, In q poses -> gap < distance q p.
  Proof.
    intros H W. revert k. induction attempts as [| attempts IH]; intros k; cbn [apart_from]; [discriminate |].
    destruct (pose_in pick share parts k) as [r |] eqn:E; [| discriminate].
    pose proof (nearest_all poses r gap) as N.
    destruct (nearest distance poses r) as [d |].
    - destruct (Rlt_dec gap d) as [L | _]; [| apply IH].
      intros [= <- <-]. split; [apply (pose_in_parts _ _ _ H W E) | apply N, L].
    - intros [= <- <-]. split; [apply (pose_in_parts _ _ _ H W E) | apply N, I].
  Qed.

  (** The entities of a test: each in one of the parts, any two more than 5 metres apart, no two with the
      same name. *)
  Theorem C233_npcs count k fast parts ds :
    (forall k, 0 <= share k < 1) -> (forall q, In q parts -> start_s q <= end_s q) ->
    npcs distance pick share count 0 k [] fast parts = Some ds ->
    length ds = count /\
    (forall i n p v, nth_error ds i = Some (n, p, v) -> n = i /\ in_parts parts p /\ v = fast i) /\
    (forall i j a b, (i < j)%nat -> nth_error ds i = Some a -> nth_error ds j = Some b ->
       5 < distance (snd (fst a)) (snd (fst b))).
  Proof.
    intros H W.
    assert (G : forall count id k poses ds, npcs distance pick share count id k poses fast parts = Some ds ->
      length ds = count /\
      (forall i n p v, nth_error ds i = Some (n, p, v) -> n = (id + i)%nat /\ in_parts parts p /\ v = fast (id + i)%nat /\
         forall q, In q poses -> 5 < distance q p) /\
      (forall i j a b, (i < j)%nat -> nth_error ds i = Some a -> nth_error ds j = Some b ->
         5 < distance (snd (fst a)) (snd (fst b)))).
    { clear count k ds. induction count as [| count IH]; intros id k poses ds; cbn [npcs].
      - intros [= <-]. split; [reflexivity |]. split; [intros [| i]; discriminate | intros [| i] j a b _; discriminate].
      - destruct (apart_from distance pick share 100 k poses 5 parts) as [[p k'] |] eqn:E; [| discriminate].
        destruct (npcs distance pick share count (S id) k' (poses ++ [p]) fast parts) as [rest |] eqn:F; [| discriminate].
        intros [= <-]. destruct (apart_from_apart _ _ _ _ _ _ _ H W E) as (A & B).
        destruct (IH _ _ _ _ F) as (C & D & Q). split; [cbn; f_equal; exact C |]. split.
        + intros [| i] n q v; cbn [nth_error].
          * intros [= <- <- <-]. rewrite Nat.add_0_r. tauto.
          * intros N. destruct (D _ _ _ _ N) as (-> & D1 & -> & D2). rewrite Nat.add_succ_r.
            split; [reflexivity |]. split; [exact D1 |]. split; [reflexivity |].
            intros r I. apply D2. apply in_or_app. left. exact I.
        + intros i j a b L Na Nb. destruct j as [| j]; [lia |]. cbn [nth_error] in Nb. destruct i as [| i]; cbn [nth_error] in Na.
          * injection Na as <-. cbn [fst snd]. destruct b as [[n q] v]. destruct (D _ _ _ _ Nb) as (_ & _ & _ & D2).
            apply D2. apply in_or_app. right. left. reflexivity.
          * apply (Q i j a b); [lia | exact Na | exact Nb]. }
    intros E. destruct (G _ _ _ _ _ E) as (A & B & C). split; [exact A |]. split; [| exact C].
    intros i n p v N. destruct (B _ _ _ _ N) as (-> & B1 & -> & _). tauto.
  Qed.
End Choice.

(** The ego has some way to its goal or to the lane opposite to it; the goal is the one that was chosen
    with the start, so it is the given one if it is given. *)
Theorem C233_ego route opposite start goal s g :
  ego_route (feasible route opposite) 100 0 start goal = Some (s, g) ->
  (exists k, (k < 100)%nat /\ s = start k /\ g = goal k) /\
  ((fst s = fst g /\ snd s < snd g) \/ route (fst s) (fst g) <> [] \/
   exists o, opposite g = Some o /\ route (fst s) (fst o) <> []).
Proof.
  assert (G : forall n k, ego_route (feasible route opposite) n k start goal = Some (s, g) ->
    exists j, (k <= j < k + n)%nat /\ s = start j /\ g = goal j /\ feasible route opposite s g = true).
  { induction n as [| n IH]; intros k; cbn [ego_route]; [discriminate |].
    destruct (feasible route opposite (start k) (goal k)) eqn:E.
    - intros [= <- <-]. exists k. split; [lia |]. tauto.
    - intros H. destruct (IH _ H) as (j & J & K). exists j. split; [lia | exact K]. }
  intros H. destruct (G _ _ H) as (j & J & A & B & F). split; [exists j; split; [lia | tauto] |].
  revert F. unfold feasible, some_route. destruct (Nat.eqb (fst s) (fst g)) eqn:E; cbn [andb].
  - apply Nat.eqb_eq in E. destruct (Rlt_dec (snd s) (snd g)) as [L | _]; [tauto |].
    destruct (route (fst s) (fst g)) as [| x r]; cbn [orb]; [| intros _; right; left; discriminate].
    destruct (opposite g) as [o |]; [| discriminate].
    destruct (route (fst s) (fst o)) as [| x r] eqn:Q; [discriminate |]. intros _. right. right. exists o.
    split; [reflexivity | rewrite Q; discriminate].
  - destruct (route (fst s) (fst g)) as [| x r]; cbn [orb]; [| intros _; right; left; discriminate].
    destruct (opposite g) as [o |]; [| discriminate].
    destruct (route (fst s) (fst o)) as [| x r] eqn:Q; [discriminate |]. intros _. right. right. exists o.
    split; [reflexivity | rewrite Q; discriminate].
Qed.

(** And if there is a pair among the first hundred that will do, one is found. *)
Theorem C233_found ok start goal k : (k < 100)%nat -> ok (start k) (goal k) = true ->
  exists s g, ego_route ok 100 0 start goal = Some (s, g) /\ ok s g = true.
Proof.
  intros K E.
  assert (G : forall n j, (j <= k < j + n)%nat -> exists s g, ego_route ok n j start goal = Some (s, g) /\ ok s g = true).
  { induction n as [| n IH]; intros j J; [lia |]. cbn [ego_route].
    destruct (ok (start j) (goal j)) eqn:F; [exists (start j), (goal j); tauto |].
    apply IH. destruct (Nat.eq_dec j k) as [-> | N]; [congruence | lia]. }
  apply G. lia.
Qed.

(** A start beyond the goal, on the same lanelet, passes if the route of a lanelet to itself is this
    lanelet. *)
Theorem C233_behind_refuted : exists start goal : Pose,
  fst start = fst goal /\ snd goal < snd start /\
  forall route opposite, route (fst start) (fst goal) = [fst start] -> feasible route opposite start goal = true.
Proof.
  exists (1%nat, 9), (1%nat, 2). split; [reflexivity |]. split; [cbn; lra |].
  intros route opposite E. unfold feasible, some_route. rewrite E. cbn [fst snd].
  destruct (Rlt_dec 9 2); [lra |]. reflexivity.
Qed.

Example C233_case : exists ds,
  npcs (fun a b => Rabs (snd a - snd b)) (fun _ _ => 0%nat) (fun k => match k with O => 0 | _ => 1 / 2 end)
       2 0 0 [] (fun _ => 1) [part 0 0 20] = Some ds.
Proof.
  cbn [npcs apart_from pose_in nth_error length nearest part_lane start_s end_s app].
  destruct (Rlt_dec 5 _) as [_ | N].
  - eexists. reflexivity.
  - exfalso. apply N. cbn [snd]. unfold Rabs. destruct (Rcase_abs _); lra.
Qed.
