From Coq Require Import Ascii String List Bool Arith Lia.
From Verif Require Import M_Scope S_Scope.
Import ListNotations.
Local Open Scope list_scope.
Local Open Scope nat_scope.
Notation length := List.length.

(** ** Names *)

Lemma colon_eqb a : Ascii.eqb a colon = true <-> a = colon.
Proof. apply Ascii.eqb_eq. Qed.

Lemma find_sep_some s off : find_sep s = Some off ->
  s = firstn off s ++ sep ++ skipn (off + 2) s /\ off + 2 <= length s.
Proof.
  revert off. induction s as [|a s IH]; intros off H; [discriminate|].
  destruct s as [|b s]; [discriminate|]. cbn [find_sep] in H.
  destruct (Ascii.eqb a colon && Ascii.eqb b colon) eqn:E.
  - injection H as <-. apply andb_true_iff in E as [Ea Eb].
    apply colon_eqb in Ea, Eb. subst. cbn. split; [reflexivity|lia].
  - change (option_map S (find_sep (b :: s)) = Some off) in H.
    destruct (find_sep (b :: s)) as [o|] eqn:F; [|discriminate]. injection H as <-.
    destruct (IH o eq_refl) as [A B]. split.
    + cbn [firstn Nat.add skipn app]. f_equal. exact A.
    + cbn [length] in *. lia.
Qed.

Lemma find_sep_app_none a s : find_sep (a :: s) = None -> find_sep s = None.
Proof.
  destruct s as [|b s]; [reflexivity|]. cbn [find_sep].
  destruct (_ && _); [discriminate|].
  change (option_map S (find_sep (b :: s)) = None -> find_sep (b :: s) = None).
  destruct (find_sep (b :: s)); [discriminate|reflexivity].
Qed.

Lemma find_sep_none s : find_sep s = None -> ~ has_sep s.
Proof.
  intros H (a & b & E). revert s E H. induction a as [|x a IH]; intros s -> H.
  - cbn in H. discriminate.
  - cbn [app] in H. apply find_sep_app_none in H. now apply (IH _ eq_refl).
Qed.

(** leftmost *)
Lemma find_sep_first s off : find_sep s = Some off -> find_sep (firstn off s) = None.
Proof.
  revert off. induction s as [|a s IH]; intros off H; [discriminate|].
  destruct s as [|b s]; [discriminate|]. cbn [find_sep] in H.
  destruct (Ascii.eqb a colon && Ascii.eqb b colon) eqn:E.
  - injection H as <-. reflexivity.
  - change (option_map S (find_sep (b :: s)) = Some off) in H.
    destruct (find_sep (b :: s)) as [o|] eqn:F; [|discriminate]. injection H as <-.
    destruct o as [|o]; [reflexivity|]. specialize (IH (S o) eq_refl).
    cbn [firstn] in *. cbn [find_sep]. rewrite E.
    change (option_map S (find_sep (b :: firstn o s)) = None). now rewrite IH.
Qed.

Lemma find_sep_colon_free s t : colon_free s -> find_sep (s ++ sep ++ t) = Some (length s).
Proof.
  unfold colon_free. induction s as [|a s IH]; intros H; [reflexivity|].
  assert (Ha : Ascii.eqb a colon = false).
  { destruct (Ascii.eqb a colon) eqn:E; [|reflexivity]. apply colon_eqb in E. subst.
    exfalso. apply H. now left. }
  specialize (IH (fun h => H (or_intror h))).
  cbn [app length]. remember (s ++ sep ++ t) as r. destruct r as [|b r].
  - destruct s; discriminate.
  - cbn [find_sep]. rewrite Ha. cbn [andb].
    change (option_map S (find_sep (b :: r)) = Some (S (length s))). now rewrite IH.
Qed.

Lemma find_sep_colon_free_none s : colon_free s -> find_sep s = None.
Proof.
  unfold colon_free. induction s as [|a s IH]; intros H; [reflexivity|].
  destruct s as [|b s]; [reflexivity|].
  assert (Ha : Ascii.eqb a colon = false).
  { destruct (Ascii.eqb a colon) eqn:E; [|reflexivity]. apply colon_eqb in E. subst.
    exfalso. apply H. now left. }
  cbn [find_sep]. rewrite Ha. cbn [andb].
  change (option_map S (find_sep (b :: s)) = None). now rewrite (IH (fun h => H (or_intror h))).
Qed.

Lemma firstn_app_all {A} (x t : list A) : firstn (length x) (x ++ t) = x.
Proof. rewrite firstn_app, firstn_all, Nat.sub_diag. cbn. apply app_nil_r. Qed.

(** Reference splitting on the remaining text. *)
Inductive splits : str -> list str -> Prop :=
| splits_last s : find_sep s = None -> splits s [s]
| splits_cons s off l : find_sep s = Some off -> splits (skipn (off + 2) s) l ->
    splits s (firstn off s :: l).

Lemma skipn_skipn' {A} (a b : nat) (l : list A) : skipn a (skipn b l) = skipn (b + a) l.
Proof.
  revert l. induction b as [|b IH]; intros l; [reflexivity|].
  destruct l as [|x l]; [now rewrite !skipn_nil|]. cbn [skipn Nat.add]. apply IH.
Qed.

Lemma separate_loop_splits fuel : forall s prev acc,
  length (skipn prev s) < fuel -> exists l, separate_loop fuel s prev acc = Some (acc ++ l) /\
    splits (skipn prev s) l.
Proof.
  induction fuel as [|fuel IH]; intros s prev acc H; [lia|]. cbn [separate_loop].
  destruct (find_sep (skipn prev s)) as [off|] eqn:E.
  - destruct (find_sep_some _ _ E) as [A B].
    destruct (IH s (prev + off + length sep) (acc ++ [firstn off (skipn prev s)])) as (l & E1 & E2).
    + cbn [length sep]. rewrite skipn_length in *. lia.
    + exists (firstn off (skipn prev s) :: l). split.
      * rewrite E1. now rewrite <- app_assoc.
      * apply splits_cons; [exact E|]. rewrite skipn_skipn'.
        replace (prev + (off + 2)) with (prev + off + length sep) by (cbn; lia). exact E2.
  - exists [skipn prev s]. split; [reflexivity|]. now constructor.
Qed.

Lemma separate_splits s : exists l, separate s = Some l /\ splits s l.
Proof.
  unfold separate. destruct (separate_loop_splits (S (length s)) s 0 []) as (l & A & B).
  - cbn [skipn]. lia.
  - exists l. now split.
Qed.

Lemma splits_det s l : splits s l -> forall l', splits s l' -> l = l'.
Proof.
  induction 1 as [s E|s off l E H IH]; intros l' H'; inversion H'; subst; try congruence.
  rewrite E in H0. injection H0 as <-. f_equal. now apply IH.
Qed.

Lemma splits_nonempty s l : splits s l -> l <> [].
Proof. destruct 1; discriminate. Qed.

Lemma splits_join s l : splits s l -> join l = s.
Proof.
  induction 1 as [s E|s off l E H IH]; [reflexivity|].
  destruct (find_sep_some _ _ E) as [A _].
  pose proof (splits_nonempty _ _ H). destruct l as [|x l]; [contradiction|].
  change (firstn off s ++ sep ++ join (x :: l) = s). rewrite IH. now symmetry.
Qed.

Lemma splits_no_sep s l : splits s l -> forall x, In x l -> ~ has_sep x.
Proof.
  induction 1 as [s E|s off l E H IH]; intros x [<-|Hx].
  - now apply find_sep_none.
  - destruct Hx.
  - apply find_sep_none. now apply find_sep_first.
  - now apply IH.
Qed.

Lemma splits_components l : l <> [] -> (forall x, In x l -> colon_free x) -> splits (join l) l.
Proof.
  induction l as [|x l IH]; intros Hn H; [contradiction|].
  destruct l as [|y l].
  - cbn [join]. apply splits_last. apply find_sep_colon_free_none. apply H. now left.
  - change (join (x :: y :: l)) with (x ++ sep ++ join (y :: l)).
    assert (E : find_sep (x ++ sep ++ join (y :: l)) = Some (length x)).
    { apply find_sep_colon_free. apply H. now left. }
    rewrite <- (firstn_app_all x (sep ++ join (y :: l))) at 2.
    apply splits_cons; [exact E|].
    replace (skipn (length x + 2) (x ++ sep ++ join (y :: l))) with (join (y :: l)).
    + apply IH; [discriminate|]. intros z Hz. apply H. now right.
    + rewrite <- skipn_skipn'. rewrite skipn_app, skipn_all, Nat.sub_diag. reflexivity.
Qed.

(** ** Well-formed environments *)

Record WF (e : env) : Prop := {
  wf_pos : 0 < length e;
  wf_outer : forall i, i < length e ->
    match outer (get e i) with None => i = 0 | Some o => o < i end;
  wf_unnamed : forall i c, In c (unnamed (get e i)) ->
    i < c /\ c < length e /\ outer (get e c) = Some i;
  wf_unnamed_nodup : forall i, NoDup (unnamed (get e i));
  wf_inner : forall i p c, In (p, c) (inner (get e i)) ->
    p <> [] /\ i < c /\ c < length e /\ outer (get e c) = Some i;
  wf_inner_nodup : forall i, NoDup (map snd (inner (get e i))) }.

Lemma update_length e : forall i f, length (update e i f) = length e.
Proof. induction e as [|x e IH]; intros [|i] f; cbn; auto. Qed.

Lemma get_update e : forall i f j,
  get (update e i f) j = if (j =? i) && (i <? length e) then f (get e i) else get e j.
Proof.
  unfold get. induction e as [|x e IH]; intros i f j.
  - cbn. rewrite andb_false_r. now destruct i, j.
  - destruct i as [|i], j as [|j]; cbn [update nth length]; try reflexivity.
    + rewrite IH. reflexivity.
Qed.

Lemma get_out e i : length e <= i -> get e i = empty_frame None.
Proof. intros H. unfold get. now apply nth_overflow. Qed.

Lemma get_app e x i :
  get (e ++ [x]) i = if i <? length e then get e i else if i =? length e then x else empty_frame None.
Proof.
  unfold get. destruct (Nat.ltb_spec i (length e)) as [H|H].
  - now apply app_nth1.
  - rewrite app_nth2 by lia. destruct (Nat.eqb_spec i (length e)) as [->|H'].
    + now rewrite Nat.sub_diag.
    + remember (i - length e) as m. destruct m as [|m]; [lia|]. cbn. now destruct m.
Qed.

Lemma WF_env0 : WF env0.
Proof.
  assert (G : forall i, get env0 i = empty_frame None) by (intros [|[|i]]; reflexivity).
  split; intros; rewrite ?G in *; cbn in *; try lia; try contradiction; try constructor.
Qed.

Lemma WF_step e o : WF e -> WF (step e o).
Proof.
  intros W. destruct o as [i name|i name x]; cbn [step].
  - destruct (Nat.ltb_spec i (length e)) as [Hi|Hi]; [|exact W].
    set (F := fun f : frame => _). set (e' := update e i F ++ [empty_frame (Some i)]).
    assert (Len : length e' = S (length e))
      by (unfold e'; rewrite app_length, update_length; cbn; lia).
    assert (G : forall j, get e' j = if j =? length e then empty_frame (Some i)
                                    else if j =? i then F (get e i) else get e j).
    { intros j. unfold e'. rewrite get_app, update_length, get_update.
      destruct (Nat.ltb_spec j (length e)), (Nat.eqb_spec j (length e)), (Nat.eqb_spec j i),
        (Nat.ltb_spec i (length e)); cbn; try lia; try reflexivity.
      symmetry. apply get_out. lia. }
    assert (FO : outer (F (get e i)) = outer (get e i)) by (unfold F; now destruct name).
    assert (GO : forall j, j < length e -> outer (get e' j) = outer (get e j)).
    { intros j Hj. rewrite G. destruct (Nat.eqb_spec j (length e)); [lia|].
      destruct (Nat.eqb_spec j i) as [->|]; [exact FO|reflexivity]. }
    split.
    + lia.
    + intros j Hj. destruct (Nat.eq_dec j (length e)) as [->|Hne].
      * rewrite G, Nat.eqb_refl. cbn. exact Hi.
      * rewrite GO by lia. apply (wf_outer _ W). lia.
    + intros j c Hc. rewrite Len.
      assert (Old : In c (unnamed (get e j)) -> j < c /\ c < S (length e) /\ outer (get e' c) = Some j).
      { intros H. destruct (wf_unnamed _ W _ _ H) as (A & B & C). rewrite GO by lia.
        split; [lia|]. split; [lia|exact C]. }
      rewrite G in Hc. destruct (Nat.eqb_spec j (length e)); [contradiction|].
      destruct (Nat.eqb_spec j i) as [->|]; [|now apply Old].
      unfold F in Hc. destruct name; cbn in Hc; [|now apply Old].
      apply in_app_or in Hc as [Hc|[<-|[]]]; [now apply Old|].
      rewrite G, Nat.eqb_refl. cbn. split; [lia|]. split; [lia|reflexivity].
    + intros j. rewrite G. destruct (Nat.eqb_spec j (length e)); [constructor|].
      destruct (Nat.eqb_spec j i) as [->|]; [|apply (wf_unnamed_nodup _ W)].
      unfold F. destruct name; cbn; [|apply (wf_unnamed_nodup _ W)].
      apply (NoDup_Add (a := length e) (l := unnamed (get e i))).
      * rewrite <- (app_nil_r (unnamed (get e i))) at 1. apply Add_app.
      * split; [apply (wf_unnamed_nodup _ W)|]. intros H. apply (wf_unnamed _ W) in H. lia.
    + intros j p c Hc. rewrite Len.
      assert (Old : In (p, c) (inner (get e j)) -> p <> [] /\ j < c /\ c < S (length e) /\ outer (get e' c) = Some j).
      { intros H. destruct (wf_inner _ W _ _ _ H) as (A & B & C & D). rewrite GO by lia.
        split; [exact A|]. split; [lia|]. split; [lia|exact D]. }
      rewrite G in Hc. destruct (Nat.eqb_spec j (length e)); [contradiction|].
      destruct (Nat.eqb_spec j i) as [->|]; [|now apply Old].
      unfold F in Hc. destruct name; cbn [inner] in Hc; [now apply Old|].
      apply in_app_or in Hc as [Hc|[Hc|[]]]; [now apply Old|]. injection Hc as <- <-.
      rewrite G, Nat.eqb_refl. cbn. split; [discriminate|]. split; [lia|]. split; [lia|reflexivity].
    + intros j. rewrite G. destruct (Nat.eqb_spec j (length e)); [constructor|].
      destruct (Nat.eqb_spec j i) as [->|]; [|apply (wf_inner_nodup _ W)].
      unfold F. destruct name; cbn [inner]; [apply (wf_inner_nodup _ W)|].
      rewrite map_app. cbn [map snd].
      apply (NoDup_Add (a := length e) (l := map snd (inner (get e i)))).
      * rewrite <- (app_nil_r (map snd (inner (get e i)))) at 1. apply Add_app.
      * split; [apply (wf_inner_nodup _ W)|]. intros H. apply in_map_iff in H as ((p & c) & E & H).
        apply (wf_inner _ W) in H. cbn in E. lia.
  - destruct (valid_name name); [|exact W].
    set (F := fun f : frame => _).
    assert (G : forall j, outer (get (update e i F) j) = outer (get e j) /\
                     unnamed (get (update e i F) j) = unnamed (get e j) /\
                     inner (get (update e i F) j) = inner (get e j)).
    { intros j. rewrite get_update. destruct (Nat.eqb_spec j i) as [->|]; cbn [andb].
      - destruct (_ <? _); auto.
      - auto. }
    assert (GO : forall j, outer (get (update e i F) j) = outer (get e j)) by apply G.
    assert (GU : forall j, unnamed (get (update e i F) j) = unnamed (get e j)) by apply G.
    assert (GI : forall j, inner (get (update e i F) j) = inner (get e j)) by apply G.
    destruct W as [w1 w2 w3 w4 w5 w6]. split; rewrite ?update_length.
    + exact w1.
    + intros j. rewrite GO. apply w2.
    + intros j c. rewrite GU, GO. apply w3.
    + intros j. rewrite GU. apply w4.
    + intros j p c. rewrite GI, GO. apply w5.
    + intros j. rewrite GI. apply w6.
Qed.

Lemma WF_build ops : WF (build ops).
Proof.
  unfold build. assert (H : forall e, WF e -> WF (fold_left step ops e)).
  { induction ops as [|o ops IH]; intros e W; [exact W|]. apply IH. now apply WF_step. }
  apply H, WF_env0.
Qed.

(** ** Breadth first search *)

Section Search.
Variables (e : env) (T : obj -> bool).
Hypothesis W : WF e.

Fixpoint level (f : frame_id) (k : nat) : list frame_id :=
  match k with
  | O => [f]
  | S k => concat (map (fun g => unnamed (get e g)) (level f k))
  end.

Lemma in_level f k g : In g (level f k) <-> below e k f g.
Proof.
  revert g. induction k as [|k IH]; intros g; cbn [level].
  - split.
    + intros [<-|[]]. constructor.
    + intros H. inversion H. now left.
  - rewrite in_concat. split.
    + intros (l & Hl & Hg). apply in_map_iff in Hl as (h & <- & Hh). apply IH in Hh.
      now apply below_S with h.
    + intros H. inversion H; subst. exists (unnamed (get e g0)). split; [|assumption].
      apply in_map_iff. exists g0. split; [reflexivity|]. now apply IH.
Qed.

Lemma below_ge k f g : below e k f g -> f + k <= g.
Proof.
  induction 1 as [|k f g h H IH Hin]; [lia|]. apply (wf_unnamed _ W) in Hin. lia.
Qed.

Lemma below_lt k f g : f < length e -> below e k f g -> g < length e.
Proof.
  intros Hf H. destruct H as [|k f g h H Hin]; [exact Hf|]. apply (wf_unnamed _ W) in Hin. lia.
Qed.

Lemma NoDup_flat (l : list frame_id) : NoDup l ->
  NoDup (concat (map (fun g => unnamed (get e g)) l)).
Proof.
  induction 1 as [|x l Hx Hl IH]; cbn; [constructor|].
  assert (D : forall c, In c (unnamed (get e x)) ->
      In c (concat (map (fun g => unnamed (get e g)) l)) -> False).
  { intros c Hc H. apply in_concat in H as (m & Hm & Hc').
    apply in_map_iff in Hm as (g & <- & Hg).
    destruct (wf_unnamed _ W _ _ Hc) as (_ & _ & A).
    destruct (wf_unnamed _ W _ _ Hc') as (_ & _ & B).
    assert (g = x) by congruence. now subst. }
  pose proof (wf_unnamed_nodup _ W x) as N. revert N D.
  generalize (unnamed (get e x)). intros u. induction u as [|c u IHu]; intros N D; [exact IH|].
  inversion N; subst. cbn. constructor.
  - intros H. apply in_app_or in H as [H|H]; [contradiction|]. apply (D c); [now left|exact H].
  - apply IHu; [assumption|]. intros y Hy. apply D. now right.
Qed.

Lemma level_nodup f k : NoDup (level f k).
Proof.
  induction k as [|k IH]; cbn [level]; [|now apply NoDup_flat].
  constructor; [intros []|constructor].
Qed.

(** Positions of the definitions seen in a list of frames. *)
Fixpoint spots (name : str) (g : frame_id) (i : nat) (l : list (str * obj)) : list ((nat * nat) * obj) :=
  match l with
  | [] => []
  | (n, x) :: l' =>
      if str_eqb n name && T x then ((g, i), x) :: spots name g (S i) l' else spots name g (S i) l'
  end.
Definition all_spots (name : str) (l : list frame_id) :=
  concat (map (fun g => spots name g 0 (variables (get e g))) l).

Lemma str_eqb_eq a b : str_eqb a b = true <-> a = b.
Proof. unfold str_eqb. destruct (list_eq_dec ascii_dec a b); split; congruence. Qed.

Lemma spots_objs name g l : forall i,
  map snd (spots name g i l) = filter T (range name l).
Proof.
  unfold range. induction l as [|[n x] l IH]; intros i; [reflexivity|]. cbn.
  destruct (str_eqb n name) eqn:E; cbn; [|apply IH]. destruct (T x); cbn; now rewrite IH.
Qed.

Lemma all_spots_objs name l :
  map snd (all_spots name l) = filter T (concat (map (fun f => range name (variables (get e f))) l)).
Proof.
  unfold all_spots. induction l as [|g l IH]; [reflexivity|]. cbn.
  now rewrite map_app, filter_app, IH, spots_objs.
Qed.

Lemma in_spots name g l : forall i g' j x,
  In ((g', j), x) (spots name g i l) <->
  g' = g /\ i <= j /\ nth_error l (j - i) = Some (name, x) /\ T x = true.
Proof.
  induction l as [|[n y] l IH]; intros i g' j x; cbn [spots].
  - split; [intros []|]. intros (_ & _ & H & _). destruct (j - i); discriminate.
  - assert (Old : In ((g', j), x) (spots name g (S i) l) <->
        g' = g /\ S i <= j /\ nth_error ((n, y) :: l) (j - i) = Some (name, x) /\ T x = true).
    { rewrite IH. split; intros (A & B & C & D); (split; [exact A|]); (split; [lia|]);
        (split; [|exact D]); replace (j - i) with (S (j - S i)) in * by lia; exact C. }
    destruct (str_eqb n name && T y) eqn:E.
    + apply andb_true_iff in E as [E1 E2]. apply str_eqb_eq in E1. cbn [In]. rewrite Old. split.
      * intros [H|H]; [injection H as <- <- <-|].
        -- split; [reflexivity|]. split; [lia|]. rewrite Nat.sub_diag. subst. now split.
        -- destruct H as (A & B & C & D). split; [exact A|]. split; [lia|]. now split.
      * intros (-> & B & C & D). destruct (Nat.eq_dec i j) as [<-|Hne].
        -- left. rewrite Nat.sub_diag in C. injection C as _ <-. reflexivity.
        -- right. split; [reflexivity|]. split; [lia|]. now split.
    + rewrite Old. split.
      * intros (A & B & C & D). split; [exact A|]. split; [lia|]. now split.
      * intros (-> & B & C & D). destruct (Nat.eq_dec i j) as [<-|Hne].
        -- rewrite Nat.sub_diag in C. injection C as -> ->.
           rewrite (proj2 (str_eqb_eq name name) eq_refl), D in E. discriminate.
        -- split; [reflexivity|]. split; [lia|]. now split.
Qed.

Lemma in_all_spots name l g i x :
  In ((g, i), x) (all_spots name l) <-> In g l /\ defines e T name g i x.
Proof.
  unfold all_spots, defines. rewrite in_concat. split.
  - intros (m & Hm & H). apply in_map_iff in Hm as (g' & <- & Hg').
    apply in_spots in H as (-> & _ & A & B). rewrite Nat.sub_0_r in A. now split.
  - intros (Hg & A & B). exists (spots name g 0 (variables (get e g))). split.
    + apply in_map_iff. now exists g.
    + apply in_spots. rewrite Nat.sub_0_r. repeat split; auto. lia.
Qed.

Lemma spots_nodup name g l : forall i, NoDup (map fst (spots name g i l)).
Proof.
  induction l as [|[n y] l IH]; intros i; cbn [spots]; [constructor|].
  destruct (_ && _); [|apply IH]. cbn. constructor; [|apply IH].
  intros H. apply in_map_iff in H as (((g' & j) & x) & E & H). cbn in E. injection E as -> ->.
  apply in_spots in H. lia.
Qed.

Lemma all_spots_nodup name l : NoDup l -> NoDup (map fst (all_spots name l)).
Proof.
  unfold all_spots. induction 1 as [|g l Hg Hl IH]; cbn; [constructor|]. rewrite map_app.
  assert (D : forall p, In p (map fst (spots name g 0 (variables (get e g)))) ->
    In p (map fst (concat (map (fun g => spots name g 0 (variables (get e g))) l))) -> False).
  { intros p H1 H2. apply in_map_iff in H1 as (((g1 & j1) & x1) & <- & H1).
    apply in_map_iff in H2 as (((g2 & j2) & x2) & E & H2). cbn in E. injection E as -> ->.
    apply in_spots in H1 as (-> & _). apply (in_all_spots name l) in H2 as (H2 & _). contradiction. }
  pose proof (spots_nodup name g (variables (get e g)) 0) as N. revert N D.
  generalize (map fst (spots name g 0 (variables (get e g)))). intros u.
  induction u as [|c u IHu]; intros N D; [exact IH|]. inversion N; subst. cbn. constructor.
  - intros H. apply in_app_or in H as [H|H]; [contradiction|]. apply (D c); [now left|exact H].
  - apply IHu; [assumption|]. intros y Hy. apply D. now right.
Qed.

(** The outcome of one breadth first search. *)
Definition bfs_ok (f : frame_id) (name : str) (from : nat) (r : option result) : Prop :=
  match r with
  | None => forall k g i x, from <= k -> below e k f g -> ~ defines e T name g i x
  | Some (Found x) => exists k g i, from <= k /\ below e k f g /\ defines e T name g i x /\
      (forall k' g' i' x', from <= k' < k -> below e k' f g' -> ~ defines e T name g' i' x') /\
      (forall g' i' x', below e k f g' -> defines e T name g' i' x' -> g' = g /\ i' = i)
  | Some Ambiguous => exists k g1 i1 x1 g2 i2 x2, from <= k /\
      below e k f g1 /\ defines e T name g1 i1 x1 /\ below e k f g2 /\ defines e T name g2 i2 x2 /\
      (g1, i1) <> (g2, i2) /\
      (forall k' g' i' x', from <= k' < k -> below e k' f g' -> ~ defines e T name g' i' x')
  | Some _ => False
  end.

Lemma level_nil f k : level f k = [] -> forall m, level f (k + m) = [].
Proof.
  intros H m. induction m as [|m IH]; [now rewrite Nat.add_0_r|]. rewrite Nat.add_succ_r.
  cbn [level]. now rewrite IH.
Qed.

Lemma bfs_spec name f : f < length e -> forall fuel k,
  length e <= fuel + f + k -> bfs_ok f name k (bfs e T fuel (level f k) name).
Proof.
  intros Hf. induction fuel as [|fuel IH]; intros k Hk.
  - destruct (level f k) as [|g l] eqn:E.
    + cbn. intros k' g' i x Hk' Hb _. apply in_level in Hb.
      replace k' with (k + (k' - k)) in Hb by lia. rewrite (level_nil _ _ E) in Hb. destruct Hb.
    + exfalso. assert (Hg : In g (level f k)) by (rewrite E; now left).
      apply in_level in Hg. pose proof (below_ge _ _ _ Hg). pose proof (below_lt _ _ _ Hf Hg). lia.
  - pose proof (all_spots_nodup name (level f k) (level_nodup f k)) as N.
    pose proof (all_spots_objs name (level f k)) as O.
    pose proof (fun g i x => in_all_spots name (level f k) g i x) as I.
    destruct (level f k) as [|g l] eqn:E.
    + cbn. intros k' g' i x Hk' Hb _. apply in_level in Hb.
      replace k' with (k + (k' - k)) in Hb by lia. rewrite (level_nil _ _ E) in Hb. destruct Hb.
    + cbn [bfs]. rewrite <- E in *. clear E g l. rewrite <- O.
      destruct (all_spots name (level f k)) as [|[[g i] x] [|[[g2 i2] x2] rest]] eqn:ES; cbn [map snd].
      * change (concat (map (fun g => unnamed (get e g)) (level f k))) with (level f (S k)).
        specialize (IH (S k) ltac:(lia)).
        assert (No : forall g i x, below e k f g -> ~ defines e T name g i x).
        { intros g i x Hb Hd. apply in_level in Hb. destruct (proj2 (I g i x) (conj Hb Hd)). }
        destruct (bfs e T fuel (level f (S k)) name) as [[x| | |]|]; cbn [bfs_ok] in *;
          try contradiction.
        -- destruct IH as (k1 & g & i & A & B & C & D & F). exists k1, g, i.
           split; [lia|]. split; [exact B|]. split; [exact C|]. split; [|exact F].
           intros k' g' i' x' Hk' Hb. destruct (Nat.eq_dec k' k) as [->|]; [now apply No|].
           apply D with k'; [lia|exact Hb].
        -- destruct IH as (k1 & g1 & i1 & x1 & g2 & i2 & x2 & A & B & C & D & F & G & H).
           exists k1, g1, i1, x1, g2, i2, x2. split; [lia|]. repeat split; auto; try apply C; try apply F.
           intros k' g' i' x' Hk' Hb. destruct (Nat.eq_dec k' k) as [->|]; [now apply No|].
           apply H with k'; [lia|exact Hb].
        -- intros k' g i x Hk' Hb. destruct (Nat.eq_dec k' k) as [->|]; [now apply No|].
           apply IH with k'; [lia|exact Hb].
      * cbn [bfs_ok]. destruct (proj1 (I g i x) (or_introl eq_refl)) as [A B]. apply in_level in A.
        exists k, g, i. split; [lia|]. split; [exact A|]. split; [exact B|].
        split; [intros; lia|]. intros g' i' x' Hb Hd. apply in_level in Hb.
        destruct (proj2 (I g' i' x') (conj Hb Hd)) as [H|[]]. injection H as -> -> _. now split.
      * cbn [bfs_ok]. destruct (proj1 (I g i x) (or_introl eq_refl)) as [A B]. apply in_level in A.
        destruct (proj1 (I g2 i2 x2) (or_intror (or_introl eq_refl))) as [A2 B2]. apply in_level in A2.
        exists k, g, i, x, g2, i2, x2. split; [lia|]. repeat split; auto; try apply B; try apply B2.
        -- intros Heq. inversion N as [|? ? N1 N2]; subst. apply N1. left. cbn. now symmetry.
        -- intros; lia.
Qed.

Lemma bfs_top name (f : frame_id) : f < length e -> bfs_ok f name 0 (bfs e T (S (length e)) [f] name).
Proof. intros Hf. apply (bfs_spec name f Hf (S (length e)) 0). lia. Qed.

Lemma encloses_lt j f h : f < length e -> encloses e j f h -> h < length e.
Proof.
  intros Hf H. induction H as [|j f o g Ho H IH]; [exact Hf|].
  apply IH. pose proof (wf_outer _ W f Hf) as A. rewrite Ho in A. lia.
Qed.

(** ** find(Name) *)

Lemma encloses_0_inv f h : encloses e 0 f h -> h = f.
Proof. inversion 1; auto. Qed.
Lemma encloses_S_inv j f h : encloses e (S j) f h -> exists o, outer (get e f) = Some o /\ encloses e j o h.
Proof. inversion 1; subst; eauto. Qed.

Lemma find_name_spec name : forall fuel (f : frame_id), f < fuel -> f < length e ->
  find_ok e T name f (find_name e T fuel f name).
Proof.
  induction fuel as [|fuel IH]; intros f Hfu Hf; [lia|]. cbn [find_name].
  pose proof (bfs_top name f Hf) as B.
  destruct (bfs e T (S (length e)) [f : frame_id] name) as [r|] eqn:E.
  - destruct r as [x| | |]; cbn [bfs_ok find_ok] in *; try contradiction.
    + destruct B as (k & g & i & _ & A & C & D & F). exists 0, k, g, i. split; [|split].
      * exists f. split; [constructor|]. now split.
      * intros j' k' g' i' x' [H|[-> H]] (h & He & Hb & Hd); [lia|].
        apply encloses_0_inv in He. subst h. now apply (D k' g' i' x'); [lia| |].
      * intros g' i' x' (h & He & Hb & Hd). apply encloses_0_inv in He. subst h. now apply (F g' i' x').
    + destruct B as (k & g1 & i1 & x1 & g2 & i2 & x2 & _ & A1 & C1 & A2 & C2 & Hne & D).
      exists 0, k, g1, i1, x1, g2, i2, x2.
      split; [exists f; split; [constructor|now split]|].
      split; [exists f; split; [constructor|now split]|]. split; [exact Hne|].
      intros j' k' g' i' x' [H|[-> H]] (h & He & Hb & Hd); [lia|].
      apply encloses_0_inv in He. subst h. now apply (D k' g' i' x'); [lia| |].
  - cbn [bfs_ok] in B.
    assert (No : forall k g i x, ~ candidate e T name f 0 k g i x).
    { intros k g i x (h & He & Hb & Hd). apply encloses_0_inv in He. subst h.
      now apply (B k g i x); [lia| |]. }
    pose proof (wf_outer _ W f Hf) as Wo. destruct (outer (get e f)) as [o|] eqn:Eo.
    + specialize (IH o ltac:(lia) ltac:(lia)).
      assert (Up : forall j k g i x, candidate e T name f (S j) k g i x <-> candidate e T name o j k g i x).
      { intros j k g i x. split.
        - intros (h & He & Hb). apply encloses_S_inv in He as (o' & Ho & He).
          rewrite Eo in Ho. injection Ho as <-. exists h. now split.
        - intros (h & He & Hb). exists h. split; [now apply encloses_S with o|exact Hb]. }
      assert (NN : forall j k, nothing_nearer e T name o j k -> nothing_nearer e T name f (S j) k).
      { intros j k H j' k' g i x Hn Hc. destruct j' as [|j']; [now apply No in Hc|].
        apply Up in Hc. apply (H j' k' g i x); [|exact Hc].
        destruct Hn as [Hn|[Hn1 Hn2]]; [left; lia|right; split; lia]. }
      destruct (find_name e T fuel o name) as [x| | |]; cbn [find_ok] in *; try contradiction.
      * destruct IH as (j & k & g & i & A & C & D). exists (S j), k, g, i.
        split; [now apply Up|]. split; [now apply NN|]. intros g' i' x' H. apply Up in H.
        now apply (D g' i' x').
      * intros [|j] k g i x H; [now apply No in H|]. apply Up in H. now apply IH in H.
      * destruct IH as (j & k & g1 & i1 & x1 & g2 & i2 & x2 & A1 & A2 & Hne & C).
        exists (S j), k, g1, i1, x1, g2, i2, x2. split; [now apply Up|]. split; [now apply Up|].
        split; [exact Hne|now apply NN].
    + intros [|j] k g i x H; [now apply No in H|]. destruct H as (h & He & _).
      apply encloses_S_inv in He as (o & Ho & _). congruence.
Qed.

(** ** resolvePrefix *)

Lemma fold_some (R : frame_id -> option (list frame_id)) l : forall acc,
  (forall c, In c l -> R c <> None) ->
  fold_left (fun acc c => match acc, R c with Some a, Some b => Some (a ++ b) | _, _ => None end)
    l (Some acc) =
  Some (acc ++ concat (map (fun c => match R c with Some b => b | None => [] end) l)).
Proof.
  induction l as [|c l IH]; intros acc H; cbn; [now rewrite app_nil_r|].
  destruct (R c) as [b|] eqn:E; [|exfalso; now apply (H c (or_introl eq_refl))].
  rewrite IH by (intros c' Hc'; apply H; now right). now rewrite app_assoc.
Qed.

Lemma below_first k f g : below e (S k) f g <-> exists c, In c (unnamed (get e f)) /\ below e k c g.
Proof.
  split.
  - revert g. induction k as [|k IH]; intros g H; inversion H; subst.
    + match goal with H : below e 0 _ _ |- _ => inversion H; subst end. exists g. split; [assumption|constructor].
    + match goal with H : below e (S k) _ _ |- _ => destruct (IH _ H) as (c & Hc & Hb) end.
      exists c. split; [exact Hc|]. now apply below_S with g0.
  - intros (c & Hc & Hb). revert f Hc. induction Hb as [|k c g h Hb IH Hin]; intros f' Hc.
    + apply below_S with f'; [constructor|exact Hc].
    + apply below_S with g; [now apply IH|exact Hin].
Qed.

Lemma in_range {A} p (l : list (str * A)) g : In g (range p l) <-> In (p, g) l.
Proof.
  unfold range. rewrite in_map_iff. split.
  - intros ((q & g') & E & H). cbn in E. subst. apply filter_In in H as [H1 H2].
    apply str_eqb_eq in H2. cbn in H2. now subst.
  - intros H. exists (p, g). split; [reflexivity|]. apply filter_In. split; [exact H|].
    now apply str_eqb_eq.
Qed.

(** Everything found is a sub-scope of that name, and if there is one something is found. *)
Lemma resolve_prefix_spec p : forall fuel f, length e <= fuel + f -> f < length e ->
  exists l, resolve_prefix e fuel f p = Some l /\
    (forall g, In g l -> named_below e p f g) /\ (forall g, named_below e p f g -> l <> []).
Proof.
  induction fuel as [|fuel IH]; intros f Hfu Hf; [lia|]. cbn [resolve_prefix].
  destruct (range p (inner (get e f))) as [|g0 l0] eqn:E.
  - rewrite (fold_some (fun c => resolve_prefix e fuel c p)).
    + eexists. split; [reflexivity|]. cbn [app]. split.
      * intros g Hg. apply in_concat in Hg as (l & Hl & Hg). apply in_map_iff in Hl as (c & <- & Hc).
        destruct (wf_unnamed _ W _ _ Hc) as (A & B & _).
        destruct (IH c ltac:(lia) B) as (l & El & L1 & _). rewrite El in Hg.
        destruct (L1 g Hg) as (k & h & Hb & Hi). exists (S k), h. split; [|exact Hi].
        apply below_first. now exists c.
      * intros g (k & h & Hb & Hi) Hnil. destruct k as [|k].
        -- inversion Hb; subst. apply in_range in Hi. rewrite E in Hi. destruct Hi.
        -- apply below_first in Hb as (c & Hc & Hb).
           destruct (wf_unnamed _ W _ _ Hc) as (A & B & _).
           destruct (IH c ltac:(lia) B) as (l & El & _ & L2).
           assert (Hl : l <> []) by (apply (L2 g); now exists k, h).
           apply Hl. destruct l as [|y l]; [reflexivity|].
           assert (Hy : In y (concat (map (fun c => match resolve_prefix e fuel c p with Some b => b | None => [] end) (unnamed (get e f))))).
           { apply in_concat. exists (y :: l). split; [|now left]. apply in_map_iff. exists c.
             now rewrite El. }
           rewrite Hnil in Hy. destruct Hy.
    + intros c Hc. destruct (wf_unnamed _ W _ _ Hc) as (A & B & _).
      destruct (IH c ltac:(lia) B) as (l & El & _). congruence.
  - exists (g0 :: l0). split; [reflexivity|]. split; [|discriminate].
    intros g Hg. rewrite <- E in Hg. apply in_range in Hg. exists 0, f. split; [constructor|exact Hg].
Qed.

Lemma named_below_lt p f g : f < length e -> named_below e p f g -> g < length e /\ f < g.
Proof.
  intros Hf (k & h & Hb & Hi). apply (wf_inner _ W) in Hi as (_ & A & B & _).
  apply below_ge in Hb. lia.
Qed.

Lemma resolve_top p f : f < length e ->
  exists l, resolve_prefix e (S (length e)) f p = Some l /\
    (forall g, In g l -> named_below e p f g /\ g < length e) /\
    (forall g, named_below e p f g -> l <> []).
Proof.
  intros Hf. destruct (resolve_prefix_spec p (S (length e)) f ltac:(lia) Hf) as (l & A & B & C).
  exists l. split; [exact A|]. split; [|exact C]. intros g Hg. split; [now apply B|].
  now apply (named_below_lt p f g Hf), B.
Qed.

Lemma find_prefixed_spec name : forall ps f, f < length e ->
  let r := find_prefixed e T f ps name in
  r <> OutOfFuel /\
  (forall x, r = Found x -> exists g, named_path e f ps g /\ g < length e /\
      find_ok e T name g (Found x)) /\
  ((forall g, ~ named_path e f ps g) -> r = NoSuch \/ r = Ambiguous).
Proof.
  induction ps as [|p ps IH]; intros f Hf; cbn [find_prefixed named_path]; cbn zeta.
  - pose proof (find_name_spec name (S (length e)) f ltac:(lia) Hf) as H. split.
    + intros E. now rewrite E in H.
    + split; [|intros Hn; exfalso; now apply (Hn f)]. intros x E. rewrite E in H. exists f. now repeat split.
  - destruct (resolve_top p f Hf) as (l & -> & A & B).
    destruct l as [|g [|g' l]].
    + split; [discriminate|]. split; [discriminate|now left].
    + destruct (A g (or_introl eq_refl)) as [A1 A2]. specialize (IH g A2). cbn zeta in IH.
      destruct IH as (I1 & I2 & I3). split; [exact I1|]. split.
      * intros x E. destruct (I2 x E) as (h & H1 & H2 & H3). exists h.
        split; [now exists g|]. now split.
      * intros Hn. apply I3. intros h Hh. apply (Hn h). now exists g.
    + split; [discriminate|]. split; [discriminate|now right].
Qed.

Lemma outermost_spec : forall fuel f, f < fuel -> f < length e -> outermost e fuel f = Some 0.
Proof.
  induction fuel as [|fuel IH]; intros f H Hf; [lia|]. cbn [outermost].
  pose proof (wf_outer _ W f Hf) as A. destruct (outer (get e f)) as [o|]; [|now subst].
  apply IH; lia.
Qed.

(** lookupFrame: the sub-scope named [p] of the nearest strictly enclosing scope that sees one; the
    outermost scope if none does. *)
Definition lookup_ok (f : frame_id) (p : str) (r : looked) : Prop :=
  match r with
  | Frame g => g < length e /\
      ((exists j h, encloses e (S j) f h /\ named_below e p h g /\
          forall j' h' g', j' < j -> encloses e (S j') f h' -> ~ named_below e p h' g') \/
       (g = 0 /\ forall j h g', encloses e (S j) f h -> ~ named_below e p h g'))
  | Multiple => exists j h g1, encloses e (S j) f h /\ named_below e p h g1 /\
          forall j' h' g', j' < j -> encloses e (S j') f h' -> ~ named_below e p h' g'
  | NoFuel => False
  end.

Lemma lookup_spec p : forall fuel f, f < fuel -> f < length e -> lookup_ok f p (lookup_frame e fuel f p).
Proof.
  induction fuel as [|fuel IH]; intros f H Hf; [lia|]. cbn [lookup_frame].
  pose proof (wf_outer _ W f Hf) as Wo. destruct (outer (get e f)) as [o|] eqn:Eo.
  - destruct (resolve_top p o ltac:(lia)) as (l & -> & A & B).
    assert (E1 : forall h, encloses e 1 f h -> h = o).
    { intros h Hh. apply encloses_S_inv in Hh as (o' & Ho & Hh). rewrite Eo in Ho. injection Ho as <-.
      now apply encloses_0_inv in Hh. }
    assert (E1' : encloses e 1 f o) by (apply encloses_S with o; [exact Eo|constructor]).
    destruct l as [|g [|g' l]].
    + specialize (IH o ltac:(lia) ltac:(lia)).
      assert (No : forall g, ~ named_below e p o g) by (intros g Hg; now apply (B g Hg)).
      assert (Up : forall j h, encloses e (S (S j)) f h <-> encloses e (S j) o h).
      { intros j h. split.
        - intros Hh. apply encloses_S_inv in Hh as (o' & Ho & Hh). rewrite Eo in Ho. now injection Ho as <-.
        - intros Hh. now apply encloses_S with o. }
      destruct (lookup_frame e fuel o p) as [g| |]; cbn [lookup_ok] in *; [|
        |exact IH].
      * destruct IH as (I1 & [(j & h & I2 & I3 & I4)|(I2 & I3)]); (split; [exact I1|]).
        -- left. exists (S j), h. split; [now apply Up|]. split; [exact I3|].
           intros [|j'] h' g' Hj Hh; [apply E1 in Hh; subst; apply No|].
           apply (I4 j'); [lia|now apply Up].
        -- right. split; [exact I2|]. intros [|j'] h' g' Hh; [apply E1 in Hh; subst; apply No|].
           apply (I3 j'). now apply Up.
      * destruct IH as (j & h & g1 & I2 & I3 & I4). exists (S j), h, g1. split; [now apply Up|].
        split; [exact I3|]. intros [|j'] h' g' Hj Hh; [apply E1 in Hh; subst; apply No|].
        apply (I4 j'); [lia|now apply Up].
    + destruct (A g (or_introl eq_refl)) as [A1 A2]. cbn. split; [exact A2|]. left. exists 0, o.
      split; [exact E1'|]. split; [exact A1|]. intros; lia.
    + destruct (A g (or_introl eq_refl)) as [A1 A2]. cbn. exists 0, o, g.
      split; [exact E1'|]. split; [exact A1|]. intros; lia.
  - cbn. split; [exact Hf|]. right. split; [exact Wo|]. intros j h g' Hh.
    apply encloses_S_inv in Hh as (o & Ho & _). congruence.
Qed.


(** ** resolvePrefix finds each sub-scope once *)

Lemma encloses_trans_last j f g o : encloses e j f g -> outer (get e g) = Some o -> encloses e (S j) f o.
Proof.
  induction 1 as [f|j f o' g Ho H IH]; intros E.
  - apply encloses_S with o; [exact E|constructor].
  - apply encloses_S with o'; [exact Ho|]. now apply IH.
Qed.

Lemma below_encloses k f g : below e k f g -> encloses e k g f.
Proof.
  induction 1 as [|k f g h H IH Hin]; [constructor|].
  apply (wf_unnamed _ W) in Hin as (_ & _ & Ho). now apply encloses_S with g.
Qed.

Lemma encloses_fun j f g : encloses e j f g -> forall g', encloses e j f g' -> g = g'.
Proof.
  induction 1 as [f|j f o g Ho H IH]; intros g' H'.
  - now apply encloses_0_inv in H'.
  - apply encloses_S_inv in H' as (o' & Ho' & H'). rewrite Ho in Ho'. injection Ho' as <-. now apply IH.
Qed.

Lemma encloses_split a : forall b f g, encloses e (a + b) f g ->
  exists h, encloses e a f h /\ encloses e b h g.
Proof.
  induction a as [|a IH]; intros b f g H; [exists f; split; [constructor|exact H]|].
  cbn in H. apply encloses_S_inv in H as (o & Ho & H). destruct (IH _ _ _ H) as (h & A & B).
  exists h. split; [now apply encloses_S with o|exact B].
Qed.

Lemma encloses_le j f g : f < length e -> encloses e j f g -> g <= f.
Proof.
  intros Hf H. revert Hf. induction H as [f|j f o g Ho H IH]; intros Hf; [lia|].
  pose proof (wf_outer _ W f Hf) as A. rewrite Ho in A. specialize (IH ltac:(lia)). lia.
Qed.

Lemma same_child f c1 c2 k1 k2 h : f < length e -> h < length e ->
  In c1 (unnamed (get e f)) -> In c2 (unnamed (get e f)) ->
  below e k1 c1 h -> below e k2 c2 h -> k1 <= k2 -> c1 = c2.
Proof.
  intros Hf Hh H1 H2 B1 B2 Hk. apply below_encloses in B1, B2.
  replace k2 with (k1 + (k2 - k1)) in B2 by lia. apply encloses_split in B2 as (g & B2 & B3).
  rewrite (encloses_fun _ _ _ B2 _ B1) in B3.
  destruct (wf_unnamed _ W _ _ H1) as (A1 & A1' & A1'').
  destruct (wf_unnamed _ W _ _ H2) as (A2 & A2' & A2'').
  destruct (k2 - k1) as [|m]; [now apply encloses_0_inv in B3|].
  apply encloses_S_inv in B3 as (o & Ho & B3). rewrite A1'' in Ho. injection Ho as <-.
  pose proof (encloses_le _ _ _ Hf B3). lia.
Qed.

Lemma resolve_nodup p : forall fuel f l, length e <= fuel + f -> f < length e ->
  resolve_prefix e fuel f p = Some l -> NoDup l.
Proof.
  induction fuel as [|fuel IH]; intros f l Hfu Hf E; [lia|]. cbn [resolve_prefix] in E.
  destruct (range p (inner (get e f))) as [|g0 l0] eqn:Er.
  - rewrite (fold_some (fun c => resolve_prefix e fuel c p)) in E.
    + injection E as <-. cbn [app].
      assert (Sub : forall c, In c (unnamed (get e f)) -> c < length e /\ length e <= fuel + c).
      { intros c Hc. destruct (wf_unnamed _ W _ _ Hc) as (A & B & _). lia. }
      assert (Inc : forall c, In c (unnamed (get e f)) -> In c (unnamed (get e f))) by auto.
      pose proof (wf_unnamed_nodup _ W f) as N. revert N Inc.
      generalize (unnamed (get e f)) at 1 2 4. intros u. induction u as [|c u IHu]; intros N Inc.
      * constructor.
      * inversion N as [|? ? N1 N2]; subst. cbn [map concat].
        pose proof (Inc c (or_introl eq_refl)) as Hc. destruct (Sub c Hc) as [S1 S2].
        destruct (resolve_prefix_spec p fuel c S2 S1) as (l & El & L1 & _). rewrite El.
        assert (D : forall g, In g l -> In g (concat (map (fun c => match resolve_prefix e fuel c p with Some b => b | None => [] end) u)) -> False).
        { intros g Hg Hg'. apply in_concat in Hg' as (l' & Hl' & Hg').
          apply in_map_iff in Hl' as (c' & <- & Hc').
          pose proof (Inc c' (or_intror Hc')) as Hc''. destruct (Sub c' Hc'') as [S1' S2'].
          destruct (resolve_prefix_spec p fuel c' S2' S1') as (l'' & El' & L1' & _).
          rewrite El' in Hg'.
          destruct (L1 g Hg) as (k & h & Hb & Hi). destruct (L1' g Hg') as (k' & h' & Hb' & Hi').
          destruct (wf_inner _ W _ _ _ Hi) as (_ & _ & _ & O1).
          destruct (wf_inner _ W _ _ _ Hi') as (_ & _ & _ & O2).
          assert (h' = h) by congruence. subst h'.
          pose proof (below_lt _ _ _ S1 Hb) as Hh.
          assert (c = c').
          { destruct (Nat.le_ge_cases k k') as [Hk|Hk].
            - exact (same_child f c c' k k' h Hf Hh Hc Hc'' Hb Hb' Hk).
            - symmetry. exact (same_child f c' c k' k h Hf Hh Hc'' Hc Hb' Hb Hk). }
          subst c'. contradiction. }
        specialize (IHu N2 (fun c H => Inc c (or_intror H))).
        pose proof (IH c l S2 S1 El) as Nl. revert Nl D. clear - IHu.
        induction l as [|y l IHl]; intros Nl D; [exact IHu|]. inversion Nl; subst. cbn. constructor.
        -- intros H. apply in_app_or in H as [H|H]; [contradiction|]. apply (D y); [now left|exact H].
        -- apply IHl; [assumption|]. intros z Hz. apply D. now right.
    + intros c Hc. destruct (wf_unnamed _ W _ _ Hc) as (A & B & _).
      destruct (resolve_prefix_spec p fuel c ltac:(lia) B) as (l' & El & _). congruence.
  - injection E as <-. rewrite <- Er. unfold range. clear - W.
    pose proof (wf_inner_nodup _ W f) as N. induction (inner (get e f)) as [|[q c] l IH]; [constructor|].
    cbn in *. inversion N; subst. destruct (str_eqb q p); cbn; [|now apply IH].
    constructor; [|now apply IH]. intros H. apply H1. apply in_map_iff in H as (x & <- & Hx).
    apply filter_In in Hx as [Hx _]. now apply in_map.
Qed.

Lemma resolve_unique p f g : f < length e -> named_below e p f g ->
  (forall g', named_below e p f g' -> g' = g) -> resolve_prefix e (S (length e)) f p = Some [g].
Proof.
  intros Hf Hg Hu. destruct (resolve_top p f Hf) as (l & El & A & B).
  pose proof (resolve_nodup p (S (length e)) f l ltac:(lia) Hf El) as N. rewrite El.
  destruct l as [|g1 [|g2 l]].
  - now destruct (B g Hg).
  - now rewrite (Hu g1) by (apply A; now left).
  - exfalso. inversion N as [|? ? N1 N2]; subst. apply N1. left.
    rewrite (Hu g1), (Hu g2); [reflexivity| |]; apply A; [right|]; now left.
Qed.

Lemma find_prefixed_unique name : forall ps f g, f < length e ->
  unique_path e f ps g -> find_prefixed e T f ps name = find_name e T (S (length e)) g name.
Proof.
  induction ps as [|p ps IH]; intros f g Hf H; cbn [unique_path find_prefixed] in *; [now subst|].
  destruct H as (h & H1 & H2 & H3). rewrite (resolve_unique p f h Hf H1 H2).
  apply IH; [|exact H3]. now apply (named_below_lt p f h Hf).
Qed.

Lemma lookup_unique p : forall fuel f j h g, f < fuel -> f < length e ->
  encloses e (S j) f h -> named_below e p h g -> (forall g', named_below e p h g' -> g' = g) ->
  (forall j' h' g', j' < j -> encloses e (S j') f h' -> ~ named_below e p h' g') ->
  lookup_frame e fuel f p = Frame g.
Proof.
  induction fuel as [|fuel IH]; intros f j h g Hfu Hf He Hg Hu Hn; [lia|]. cbn [lookup_frame].
  apply encloses_S_inv in He as (o & Ho & He). rewrite Ho.
  pose proof (wf_outer _ W f Hf) as Wo. rewrite Ho in Wo.
  destruct j as [|j].
  - apply encloses_0_inv in He. subst h. now rewrite (resolve_unique p o g ltac:(lia) Hg Hu).
  - destruct (resolve_top p o ltac:(lia)) as (l & El & A & B). rewrite El.
    destruct l as [|g1 l].
    + apply IH with j h; auto; try lia. intros j' h' g' Hj Hh. apply (Hn (S j') h' g'); [lia|].
      now apply encloses_S with o.
    + exfalso. apply (Hn 0 o g1); [lia| |].
      * apply encloses_S with o; [exact Ho|constructor].
      * apply A. now left.
Qed.

End Search.
