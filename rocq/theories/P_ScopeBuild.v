(** The environment built by a program records exactly what the program did. *)
From Coq Require Import Ascii String List Bool Arith Lia.
From Verif Require Import M_Scope S_Scope.
Import ListNotations.
Local Open Scope list_scope.
Local Open Scope nat_scope.
Notation length := List.length.

Lemma update_length : forall e i f, length (update e i f) = length e.
Proof. induction e; destruct i; intros; cbn; auto. Qed.
Lemma get_update_same : forall e i f, i < length e -> get (update e i f) i = f (get e i).
Proof. unfold get; induction e; destruct i; intros f H; cbn in *; try lia; auto. apply IHe; lia. Qed.
Lemma get_update_other : forall e i j f, i <> j -> get (update e i f) j = get e j.
Proof. unfold get; induction e; destruct i, j; intros f H; cbn in *; try lia; auto. Qed.
Lemma get_app_l : forall e e' i, i < length e -> get (e ++ e') i = get e i.
Proof. intros; unfold get; rewrite app_nth1; auto. Qed.
Lemma get_app_r : forall e f, get (e ++ [f]) (length e) = f.
Proof. intros; unfold get; rewrite app_nth2, Nat.sub_diag; auto. Qed.
Lemma get_beyond : forall e i, length e <= i -> get e i = empty_frame None.
Proof. intros; unfold get; apply nth_overflow; auto. Qed.

Lemma legal_app : forall ops n o, legal n (ops ++ [o]) ->
  legal n ops /\ match o with
                 | NewScope i _ => i < n + length (openings ops)
                 | Define i _ _ => i < n + length (openings ops)
                 end.
Proof.
  induction ops as [| o' ops IH]; intros n o H; cbn in *.
  - destruct o; rewrite Nat.add_0_r; tauto.
  - destruct o' as [i m | i m x]; destruct H as (H1 & H2); apply IH in H2; destruct H2 as (H2 & H3).
    + cbn. split; [auto|]. destruct o; lia.
    + split; auto.
Qed.
Lemma openings_app : forall a b, openings (a ++ b) = openings a ++ openings b.
Proof. induction a as [| [] a IH]; intros; cbn; rewrite ?IH; auto. Qed.
Lemma definitions_app : forall g a b, definitions g (a ++ b) = definitions g a ++ definitions g b.
Proof.
  intros g; induction a as [| [] a IH]; intros; cbn; auto.
  destruct (_ && _); cbn; rewrite IH; auto.
Qed.
Lemma build_app : forall ops o, build (ops ++ [o]) = step (build ops) o.
Proof. intros; unfold build; rewrite fold_left_app; reflexivity. Qed.
Lemma children_app : forall o named a k b, children o named (a ++ b) k =
  children o named a k ++ children o named b (k + length a).
Proof.
  intros o named; induction a as [| [i m] a IH]; intros k b; cbn.
  - rewrite Nat.add_0_r; auto.
  - rewrite IH, Nat.add_succ_r, Nat.add_succ_l, app_assoc. auto.
Qed.
Lemma children_snoc : forall o named l i m k,
  children o named (l ++ [(i, m)]) k =
  children o named l k ++
  (if (i =? o) && (negb named || nonempty m) && (named || negb (nonempty m))
   then [(m, S (k + length l))] else []).
Proof. intros. rewrite children_app. cbn. rewrite app_nil_r. auto. Qed.

Record recorded (ops : list op) (e : env) : Prop := {
  rec_length : length e = S (length (openings ops));
  rec_vars : forall g, variables (get e g) = definitions g ops;
  rec_outer : forall g, outer (get e g) = opened_in ops g;
  rec_inner : forall g, inner (get e g) = children g true (openings ops) 0;
  rec_unnamed : forall g, unnamed (get e g) = map snd (children g false (openings ops) 0) }.

Lemma no_definitions : forall ops n g, legal n ops -> n + length (openings ops) <= g ->
  definitions g ops = [].
Proof.
  induction ops as [| [i m | i m x] ops IH]; intros n g H Hg; cbn in *; auto.
  - destruct H as (H1 & H2). apply (IH (S n)); auto. lia.
  - destruct H as (H1 & H2). destruct (Nat.eqb_spec i g); [subst; lia|]. cbn. apply (IH n); auto.
Qed.
Lemma no_children : forall ops n g named k, legal n ops -> n + length (openings ops) <= g ->
  children g named (openings ops) k = [].
Proof.
  induction ops as [| [i m | i m x] ops IH]; intros n g named k H Hg; cbn in *; auto.
  - destruct H as (H1 & H2). destruct (Nat.eqb_spec i g); [subst; lia|]. cbn.
    apply (IH (S n)); auto. lia.
  - destruct H as (H1 & H2). apply (IH n); auto.
Qed.

Lemma build_recorded : forall ops, legal 1 ops -> recorded ops (build ops).
Proof.
  induction ops as [| o ops IH] using rev_ind; intros H.
  - constructor; try reflexivity; intros [| [| g]]; reflexivity.
  - apply legal_app in H. destruct H as (H & Ho). specialize (IH H). destruct IH as [L V O I U].
    rewrite build_app. set (e := build ops) in *.
    destruct o as [i m | i m x]; cbn [step].
    + replace (i <? length e) with true by (symmetry; apply Nat.ltb_lt; lia).
      set (F := fun f => _). 
      assert (Hd : forall g, definitions g (ops ++ [NewScope i m]) = definitions g ops)
        by (intro g; rewrite definitions_app; apply app_nil_r).
      assert (Hop : openings (ops ++ [NewScope i m]) = openings ops ++ [(i, m)])
        by (rewrite openings_app; reflexivity).
      assert (G : forall g, get (update e i F ++ [empty_frame (Some i)]) g =
                  if g =? length e then empty_frame (Some i)
                  else if g =? i then F (get e i) else get e g).
      { intro g. destruct (Nat.eqb_spec g (length e)) as [-> | Hg].
        - rewrite <- (update_length e i F). apply get_app_r.
        - destruct (Nat.eqb_spec g i) as [-> | Hi].
          + rewrite get_app_l by (rewrite update_length; lia). apply get_update_same. lia.
          + destruct (lt_dec g (length e)).
            * rewrite get_app_l by (rewrite update_length; lia). apply get_update_other; auto.
            * rewrite !get_beyond; auto; try lia. rewrite app_length, update_length; cbn; lia. }
      assert (Nd : definitions (length e) ops = []) by (apply (no_definitions ops 1); auto; lia).
      assert (Nc : forall named, children (length e) named (openings ops) 0 = [])
        by (intro; apply (no_children ops 1); auto; lia).
      constructor.
      * rewrite app_length, update_length, L, Hop, app_length; cbn; lia.
      * intros g. rewrite G, Hd. destruct (Nat.eqb_spec g (length e)) as [-> | Hg]; [auto|].
        destruct (Nat.eqb_spec g i) as [-> | Hi]; [| auto]. unfold F. destruct m; cbn; auto.
      * intros g. rewrite G. unfold opened_in in *. rewrite Hop.
        destruct (Nat.eqb_spec g (length e)) as [-> | Hg].
        -- rewrite L. rewrite nth_error_app2, Nat.sub_diag by lia. reflexivity.
        -- assert (E : outer (if g =? i then F (get e i) else get e g) = outer (get e g)).
           { destruct (Nat.eqb_spec g i) as [-> | Hi]; [| auto]. unfold F. destruct m; auto. }
           rewrite E, O. destruct g as [| g]; [auto|].
           destruct (lt_dec g (length (openings ops))).
           ++ rewrite nth_error_app1; auto.
           ++ assert (N1 : nth_error (openings ops) g = None) by (apply nth_error_None; lia).
              assert (N2 : nth_error (openings ops ++ [(i, m)]) g = None)
                by (apply nth_error_None; rewrite app_length; cbn; lia).
              rewrite N1, N2; auto.
      * intros g. rewrite G, Hop, children_snoc.
        destruct (Nat.eqb_spec g (length e)) as [-> | Hg].
        -- rewrite Nc. destruct (Nat.eqb_spec i (length e)); [lia | reflexivity].
        -- destruct (Nat.eqb_spec g i) as [-> | Hi].
           ++ unfold F. rewrite Nat.eqb_refl. destruct m; cbn; rewrite I, ?app_nil_r, ?L; auto.
           ++ destruct (Nat.eqb_spec i g); [congruence|]. cbn. rewrite app_nil_r; auto.
      * intros g. rewrite G, Hop, children_snoc, map_app.
        destruct (Nat.eqb_spec g (length e)) as [-> | Hg].
        -- rewrite Nc. destruct (Nat.eqb_spec i (length e)); [lia | reflexivity].
        -- destruct (Nat.eqb_spec g i) as [-> | Hi].
           ++ unfold F. rewrite Nat.eqb_refl. destruct m; cbn; rewrite U, ?app_nil_r, ?L; auto.
           ++ destruct (Nat.eqb_spec i g); [congruence|]. cbn. rewrite app_nil_r; auto.
    + assert (Hop : openings (ops ++ [Define i m x]) = openings ops)
        by (rewrite openings_app; apply app_nil_r).
      assert (Hd : forall g, definitions g (ops ++ [Define i m x]) = definitions g ops ++
                   (if (i =? g) && valid_name m then [(m, x)] else []))
        by (intro g; rewrite definitions_app; cbn; destruct (_ && _); auto).
      destruct (valid_name m) eqn:Vm.
      * set (F := fun f => _).
        assert (G : forall g, get (update e i F) g = if g =? i then F (get e i) else get e g).
        { intro g. destruct (Nat.eqb_spec g i) as [-> | Hi].
          - apply get_update_same. lia.
          - apply get_update_other; auto. }
        constructor; rewrite ?update_length, ?Hop; auto; intros g; rewrite G.
        -- rewrite Hd. destruct (Nat.eqb_spec g i) as [-> | Hi].
           ++ rewrite Nat.eqb_refl. cbn. rewrite V; auto.
           ++ destruct (Nat.eqb_spec i g); [congruence|]. cbn. rewrite app_nil_r; auto.
        -- unfold opened_in. rewrite Hop. destruct (Nat.eqb_spec g i) as [-> | Hi]; apply O.
        -- destruct (Nat.eqb_spec g i) as [-> | Hi]; apply I.
        -- destruct (Nat.eqb_spec g i) as [-> | Hi]; apply U.
      * constructor; rewrite ?Hop; auto; intros g.
        -- rewrite Hd, andb_false_r, app_nil_r; auto.
        -- unfold opened_in. rewrite Hop. apply O.
Qed.
