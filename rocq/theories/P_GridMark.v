(** * Proofs about the rows marked and the values built *)

From Coq Require Import ZArith QArith List Bool Lia.
From Verif Require Import M_Grid S_Grid P_Grid.
Import ListNotations.
Open Scope Z_scope.

Lemma read_in a i : (i < size a)%nat -> read a i = Some (at_ a i).
Proof. intros H. unfold read. apply Nat.ltb_lt in H. rewrite H. reflexivity. Qed.

Lemma write_in a i v : (i < size a)%nat ->
  write a i v = Some (Vector (size a) (fun j => if (j =? i)%nat then v else at_ a j)).
Proof. intros H. unfold write. apply Nat.ltb_lt in H. rewrite H. reflexivity. Qed.

Lemma int16_id z : -32768 <= z <= 32767 -> int16 z = z.
Proof. intros H. unfold int16. rewrite Z.mod_small by lia. lia. Qed.

Lemma bump_in g i d : (i < size g)%nat -> -32768 <= at_ g i + d <= 32767 ->
  bump g i d = Some (Vector (size g) (fun j => if (j =? i)%nat then at_ g i + d else at_ g j)).
Proof.
  intros H B. unfold bump. rewrite (read_in g i H). simpl. rewrite write_in by auto.
  rewrite int16_id by auto. reflexivity.
Qed.

(** ** Extents of the rows *)

(** The cells the code visits for a polygon. *)
Definition visits (poly : list point) (c : Z * Z) : Prop :=
  exists p q l e, In (p, q) (edges poly) /\ traverse (enough p q) p q = Some (l, e) /\ In c l.

Lemma see_spec height mins maxs col row : size mins = height -> size maxs = height ->
  exists mins' maxs', see height (mins, maxs) (col, row) = Some (mins', maxs') /\
    size mins' = height /\ size maxs' = height /\
    forall r, (r < height)%nat -> forall c,
      (at_ mins' r <= c <-> at_ mins r <= c \/ (row = Z.of_nat r /\ col <= c)) /\
      (c <= at_ maxs' r <-> c <= at_ maxs r \/ (row = Z.of_nat r /\ c <= col)).
Proof.
  intros S1 S2. unfold see. destruct ((0 <=? row) && (row <? Z.of_nat height)) eqn:E; simpl.
  - apply andb_true_iff in E. destruct E as [E1 E2]. apply Z.leb_le in E1. apply Z.ltb_lt in E2.
    rewrite read_in by lia. simpl. rewrite write_in by lia. simpl.
    rewrite read_in by lia. simpl. rewrite write_in by lia. simpl.
    eexists _, _. split; [reflexivity|]. simpl. repeat split; auto.
    + destruct (r =? Z.to_nat row)%nat eqn:R; [|auto].
      apply Nat.eqb_eq in R. subst r. intros. destruct (Z.min_spec (at_ mins (Z.to_nat row)) col); lia.
    + destruct (r =? Z.to_nat row)%nat eqn:R.
      * apply Nat.eqb_eq in R. subst r. lia.
      * apply Nat.eqb_neq in R. intros [?|[? ?]]; auto. lia.
    + destruct (r =? Z.to_nat row)%nat eqn:R; [|auto].
      apply Nat.eqb_eq in R. subst r. intros. lia.
    + destruct (r =? Z.to_nat row)%nat eqn:R.
      * apply Nat.eqb_eq in R. subst r. lia.
      * apply Nat.eqb_neq in R. intros [?|[? ?]]; auto. lia.
  - exists mins, maxs. repeat split; auto; intros [?|[? ?]]; auto;
      exfalso; apply andb_false_iff in E; destruct E as [E|E];
        [apply Z.leb_gt in E|apply Z.ltb_ge in E|apply Z.leb_gt in E|apply Z.ltb_ge in E]; lia.
Qed.

Lemma see_all_spec height : forall cells mins maxs, size mins = height -> size maxs = height ->
  exists mins' maxs', see_all height (mins, maxs) cells = Some (mins', maxs') /\
    size mins' = height /\ size maxs' = height /\
    forall r, (r < height)%nat -> forall c,
      (at_ mins' r <= c <-> at_ mins r <= c \/ exists col, In (col, Z.of_nat r) cells /\ col <= c) /\
      (c <= at_ maxs' r <-> c <= at_ maxs r \/ exists col, In (col, Z.of_nat r) cells /\ c <= col).
Proof.
  induction cells as [|[col row] cells IH]; intros mins maxs S1 S2.
  - exists mins, maxs. simpl. repeat split; auto; intros [?|(? & [] & _)]; auto.
  - destruct (see_spec height mins maxs col row S1 S2) as (m1 & x1 & E & A1 & A2 & A3).
    destruct (IH m1 x1 A1 A2) as (m2 & x2 & F & B1 & B2 & B3).
    exists m2, x2. cbn [see_all]. rewrite E. cbn [bind fst]. rewrite F.
    repeat split; auto.
    + intros L. apply (B3 r H c) in L. destruct L as [L|(k & I & K)].
      * apply (A3 r H c) in L. destruct L as [L|[-> L]]; auto.
        right. exists col. simpl. auto.
      * right. exists k. simpl. auto.
    + intros L. apply (B3 r H c). destruct L as [L|(k & [I|I] & K)].
      * left. apply (A3 r H c). auto.
      * injection I as -> ->. left. apply (A3 r H c). auto.
      * right. eauto.
    + intros L. apply (B3 r H c) in L. destruct L as [L|(k & I & K)].
      * apply (A3 r H c) in L. destruct L as [L|[-> L]]; auto.
        right. exists col. simpl. auto.
      * right. exists k. simpl. auto.
    + intros L. apply (B3 r H c). destruct L as [L|(k & [I|I] & K)].
      * left. apply (A3 r H c). auto.
      * injection I as -> ->. left. apply (A3 r H c). auto.
      * right. eauto.
Qed.

Definition visited_in (es : list (point * point)) (c : Z * Z) : Prop :=
  exists p q l e, In (p, q) es /\ traverse (enough p q) p q = Some (l, e) /\ In c l.

Lemma see_edges_spec height : forall es mins maxs, size mins = height -> size maxs = height ->
  exists mins' maxs', see_edges height (mins, maxs) es = Some (mins', maxs') /\
    size mins' = height /\ size maxs' = height /\
    forall r, (r < height)%nat -> forall c,
      (at_ mins' r <= c <-> at_ mins r <= c \/ exists col, visited_in es (col, Z.of_nat r) /\ col <= c) /\
      (c <= at_ maxs' r <-> c <= at_ maxs r \/ exists col, visited_in es (col, Z.of_nat r) /\ c <= col).
Proof.
  induction es as [|[p q] es IH]; intros mins maxs S1 S2.
  - exists mins, maxs. simpl. repeat split; auto; intros [?|(? & (? & ? & ? & ? & [] & _) & _)]; auto.
  - destruct (traverse_ends p q _ (le_n _)) as ([l e] & T).
    destruct (see_all_spec height l mins maxs S1 S2) as (m1 & x1 & E & A1 & A2 & A3).
    destruct (IH m1 x1 A1 A2) as (m2 & x2 & F & B1 & B2 & B3).
    exists m2, x2. cbn [see_edges]. rewrite T. cbn [bind fst]. rewrite E. cbn [bind fst]. rewrite F.
    assert (V : forall c, visited_in ((p, q) :: es) c <-> In c l \/ visited_in es c).
    { intros c. split.
      - intros (p' & q' & l' & e' & [I|I] & T' & I').
        + injection I as <- <-. rewrite T in T'. injection T' as <- <-. auto.
        + right. exists p', q', l', e'. auto.
      - intros [I|(p' & q' & l' & e' & I & T' & I')].
        + exists p, q, l, e. simpl. auto.
        + exists p', q', l', e'. simpl. auto. }
    repeat split; auto.
    + intros L. apply (B3 r H c) in L. destruct L as [L|(k & I & K)].
      * apply (A3 r H c) in L. destruct L as [L|(k & I & K)]; auto.
        right. exists k. rewrite V. auto.
      * right. exists k. rewrite V. auto.
    + intros L. apply (B3 r H c). destruct L as [L|(k & I & K)].
      * left. apply (A3 r H c). auto.
      * apply V in I. destruct I as [I|I]; [left; apply (A3 r H c); eauto|right; eauto].
    + intros L. apply (B3 r H c) in L. destruct L as [L|(k & I & K)].
      * apply (A3 r H c) in L. destruct L as [L|(k & I & K)]; auto.
        right. exists k. rewrite V. auto.
      * right. exists k. rewrite V. auto.
    + intros L. apply (B3 r H c). destruct L as [L|(k & I & K)].
      * left. apply (A3 r H c). auto.
      * apply V in I. destruct I as [I|I]; [left; apply (A3 r H c); eauto|right; eauto].
Qed.

(** ** Marking rows *)
Definition delta (width : nat) (lo hi : Z) (c : nat) : Z :=
  if (hi + 1 <=? 0) || (Z.of_nat width <=? lo) then 0
  else (if Z.of_nat c =? Z.max 0 lo then 1 else 0) + (if Z.of_nat c =? hi + 1 then -1 else 0).

Lemma delta_small width lo hi c : lo <= hi -> -1 <= delta width lo hi c <= 1.
Proof.
  intros L. unfold delta. destruct ((hi + 1 <=? 0) || (Z.of_nat width <=? lo)); [lia|].
  destruct (Z.of_nat c =? Z.max 0 lo); destruct (Z.of_nat c =? hi + 1); lia.
Qed.

Lemma cell_eq (w r c r' c' : nat) : (c < w)%nat -> (c' < w)%nat ->
  (w * r + c = w * r' + c')%nat -> r = r' /\ c = c'.
Proof.
  intros H H' E. assert (r = r') by nia. subst. split; [auto|lia].
Qed.

Lemma cell_in (w h r c : nat) : (r < h)%nat -> (c < w)%nat -> (w * r + c < h * w)%nat.
Proof. intros. nia. Qed.

(** The two ends of a row are in order when the row is marked at all. *)
Definition ordered (w : nat) (lo hi : Z) : Prop := hi + 1 <= 0 \/ Z.of_nat w <= lo \/ lo <= hi.

Lemma mark_row_spec h w ext g row :
  size (fst ext) = h -> size (snd ext) = h -> (row < h)%nat -> size g = (h * w)%nat -> (0 < w)%nat ->
  ordered w (at_ (fst ext) row) (at_ (snd ext) row) ->
  (forall c, (c < w)%nat -> -32767 <= at_ g (w * row + c) <= 32766) ->
  exists g', mark_row w ext g row = Some g' /\ size g' = (h * w)%nat /\
    (forall c, (c < w)%nat -> at_ g' (w * row + c)%nat =
       at_ g (w * row + c)%nat + delta w (at_ (fst ext) row) (at_ (snd ext) row) c) /\
    (forall r c, (c < w)%nat -> r <> row -> at_ g' (w * r + c)%nat = at_ g (w * r + c)%nat).
Proof.
  intros S1 S2 R SG W O B. unfold mark_row. rewrite !read_in by lia. cbn [bind fst].
  set (lo := at_ (fst ext) row) in *. set (hi := at_ (snd ext) row) in *.
  unfold delta. destruct ((hi + 1 <=? 0) || (Z.of_nat w <=? lo)) eqn:E.
  - exists g. repeat split; auto. intros. lia.
  - apply orb_false_iff in E. destruct E as [E1 E2]. apply Z.leb_gt in E1. apply Z.leb_gt in E2.
    assert (LH : lo <= hi) by (destruct O as [?|[?|?]]; lia).
    set (k := Z.to_nat (Z.max 0 lo)).
    assert (KW : (k < w)%nat) by (unfold k; lia).
    assert (IN : (w * row + k < size g)%nat) by (rewrite SG; apply cell_in; auto).
    assert (FIRST : (if lo <=? 0 then bump g (w * row) 1 else bump g (w * row + Z.to_nat lo) 1) =
      Some (Vector (size g) (fun j => if (j =? w * row + k)%nat then at_ g (w * row + k)%nat + 1 else at_ g j))).
    { specialize (B k KW).
      destruct (Z.leb_spec lo 0).
      - replace (w * row)%nat with (w * row + k)%nat at 1 by (unfold k; rewrite Z.max_l by lia; lia).
        apply bump_in; auto. lia.
      - replace (Z.to_nat lo) with k by (unfold k; rewrite Z.max_r by lia; lia).
        apply bump_in; auto. lia. }
    rewrite FIRST. cbn [bind fst].
    destruct (Z.ltb_spec (hi + 1) (Z.of_nat w)) as [M|M].
    + set (m := Z.to_nat (hi + 1)). assert (MW : (m < w)%nat) by (unfold m; lia).
      assert (KM : k <> m) by (unfold k, m; lia).
      assert (IM : (w * row + m < h * w)%nat) by (apply cell_in; auto).
      assert (NE : (w * row + m =? w * row + k)%nat = false) by (apply Nat.eqb_neq; lia).
      rewrite bump_in; simpl.
      * eexists. split; [reflexivity|]. simpl. repeat split; auto.
        -- intros c C.
           destruct (Nat.eqb_spec (w * row + c) (w * row + m)) as [X|X].
           ++ assert (c = m) by lia. subst c. rewrite NE.
              destruct (Z.eqb_spec (Z.of_nat m) (Z.max 0 lo)); [unfold m, k in *; lia|].
              destruct (Z.eqb_spec (Z.of_nat m) (hi + 1)); [lia|unfold m in *; lia].
           ++ destruct (Nat.eqb_spec (w * row + c) (w * row + k)) as [Y|Y].
              ** assert (c = k) by lia. subst c.
                 destruct (Z.eqb_spec (Z.of_nat k) (Z.max 0 lo)); [|unfold k in *; lia].
                 destruct (Z.eqb_spec (Z.of_nat k) (hi + 1)); [unfold k in *; lia|lia].
              ** destruct (Z.eqb_spec (Z.of_nat c) (Z.max 0 lo)); [unfold k in *; lia|].
                 destruct (Z.eqb_spec (Z.of_nat c) (hi + 1)); [unfold m in *; lia|lia].
        -- intros r c C N.
           destruct (Nat.eqb_spec (w * r + c) (w * row + m)) as [X|X].
           { apply cell_eq in X; auto. destruct X. contradiction. }
           destruct (Nat.eqb_spec (w * r + c) (w * row + k)) as [Y|Y]; auto.
           apply cell_eq in Y; auto. destruct Y. contradiction.
      * rewrite SG. auto.
      * rewrite NE. specialize (B m MW). lia.
    + eexists. split; [reflexivity|]. simpl. repeat split; auto.
      * intros c C. destruct (Nat.eqb_spec (w * row + c) (w * row + k)) as [Y|Y].
        -- assert (c = k) by lia. subst c.
           destruct (Z.eqb_spec (Z.of_nat k) (Z.max 0 lo)); [|unfold k in *; lia].
           destruct (Z.eqb_spec (Z.of_nat k) (hi + 1)); lia.
        -- destruct (Z.eqb_spec (Z.of_nat c) (Z.max 0 lo)); [unfold k in *; lia|].
           destruct (Z.eqb_spec (Z.of_nat c) (hi + 1)); lia.
      * intros r c C N. destruct (Nat.eqb_spec (w * r + c) (w * row + k)) as [Y|Y]; auto.
        apply cell_eq in Y; auto. destruct Y. contradiction.
Qed.

Lemma mark_rows_spec h w ext : (0 < w)%nat ->
  size (fst ext) = h -> size (snd ext) = h ->
  forall rows g, NoDup rows -> (forall r, In r rows -> (r < h)%nat) -> size g = (h * w)%nat ->
  (forall r, In r rows -> ordered w (at_ (fst ext) r) (at_ (snd ext) r)) ->
  (forall r c, In r rows -> (c < w)%nat -> -32767 <= at_ g (w * r + c) <= 32766) ->
  exists g', mark_rows w ext g rows = Some g' /\ size g' = (h * w)%nat /\
    (forall r c, In r rows -> (c < w)%nat -> at_ g' (w * r + c)%nat =
       at_ g (w * r + c)%nat + delta w (at_ (fst ext) r) (at_ (snd ext) r) c) /\
    (forall r c, ~ In r rows -> (c < w)%nat -> at_ g' (w * r + c)%nat = at_ g (w * r + c)%nat).
Proof.
  intros W S1 S2. induction rows as [|row rows IH]; intros g ND LT SG O B.
  - exists g. simpl. repeat split; auto. intros ? ? [].
  - inversion ND as [|? ? N1 N2]; subst.
    destruct (mark_row_spec (size (fst ext)) w ext g row) as (g1 & E & A1 & A2 & A3); simpl in *; auto.
    destruct (IH g1) as (g2 & F & B1 & B2 & B3); auto.
    { intros r c I C. rewrite A3; auto. intros ->. contradiction. }
    exists g2. rewrite E. cbn [bind fst]. rewrite F. repeat split; auto.
    + intros r c [<-|I] C.
      * rewrite B3 by auto. apply A2. exact C.
      * rewrite B2 by auto. rewrite A3; auto. intros ->. contradiction.
    + intros r c I C. rewrite B3 by tauto. apply A3; auto.
Qed.

(** The extent of a row: whether column [c] lies between cells visited. *)
Definition between (poly : list point) (r c : nat) : Prop :=
  exists c1 c2, visits poly (c1, Z.of_nat r) /\ visits poly (c2, Z.of_nat r) /\
                c1 <= Z.of_nat c <= c2.

(** What [addPolygon] does, as a function [d] added to the grid: running sums of [d] along a row
    are 1 between the cells visited and 0 elsewhere. *)
Fixpoint upto (f : nat -> Z) (c : nat) : Z :=
  match c with O => f O | S k => upto f k + f (S k) end.

Lemma upto_ext f g : forall c, (forall k, (k <= c)%nat -> f k = g k) -> upto f c = upto g c.
Proof.
  induction c as [|c IH]; intros H; simpl; [auto|]. rewrite H by auto. rewrite IH; auto.
Qed.

Lemma upto_delta w lo hi : ordered w lo hi -> forall c, (c < w)%nat ->
  upto (delta w lo hi) c = if (lo <=? Z.of_nat c) && (Z.of_nat c <=? hi) then 1 else 0.
Proof.
  intros O. 
  destruct ((hi + 1 <=? 0) || (Z.of_nat w <=? lo)) eqn:E.
  - intros c C.
    assert (upto (delta w lo hi) c = 0).
    { clear C. assert (D : forall k, delta w lo hi k = 0) by (intros k; unfold delta; rewrite E; auto).
      induction c as [|c IH]; cbn [upto]; rewrite ?D; lia. }
    rewrite H. apply orb_true_iff in E. destruct E as [E|E]; apply Z.leb_le in E.
    + replace (Z.of_nat c <=? hi) with false by (symmetry; apply Z.leb_gt; lia).
      rewrite andb_false_r. reflexivity.
    + replace (lo <=? Z.of_nat c) with false by (symmetry; apply Z.leb_gt; lia). reflexivity.
  - assert (D : forall c, delta w lo hi c =
      (if Z.of_nat c =? Z.max 0 lo then 1 else 0) + (if Z.of_nat c =? hi + 1 then -1 else 0)).
    { intros c. unfold delta. rewrite E. reflexivity. }
    apply orb_false_iff in E. destruct E as [E1 E2]. apply Z.leb_gt in E1. apply Z.leb_gt in E2.
    assert (LH : lo <= hi) by (destruct O as [?|[?|?]]; lia).
    induction c as [|c IH]; intros C; simpl upto.
    + rewrite D. destruct (Z.leb_spec lo (Z.of_nat 0)); destruct (Z.leb_spec (Z.of_nat 0) hi); simpl andb;
        destruct (Z.eqb_spec (Z.of_nat 0) (Z.max 0 lo)); destruct (Z.eqb_spec (Z.of_nat 0) (hi + 1)); simpl; lia.
    + rewrite IH by lia. rewrite D.
      destruct (Z.leb_spec lo (Z.of_nat c)); destruct (Z.leb_spec (Z.of_nat c) hi);
      destruct (Z.leb_spec lo (Z.of_nat (S c))); destruct (Z.leb_spec (Z.of_nat (S c)) hi); simpl andb;
        destruct (Z.eqb_spec (Z.of_nat (S c)) (Z.max 0 lo)); destruct (Z.eqb_spec (Z.of_nat (S c)) (hi + 1));
        cbv beta iota; lia.
Qed.

Lemma add_polygon_spec h w g poly : (0 < w)%nat -> size g = (h * w)%nat ->
  (forall r c, (r < h)%nat -> (c < w)%nat -> -32767 <= at_ g (w * r + c) <= 32766) ->
  exists g' d, add_polygon h w g poly = Some g' /\ size g' = (h * w)%nat /\
    (forall r c, (r < h)%nat -> (c < w)%nat ->
       at_ g' (w * r + c)%nat = at_ g (w * r + c)%nat + d r c) /\
    (forall r c, (r < h)%nat -> (c < w)%nat -> -1 <= d r c <= 1) /\
    (forall r c, (r < h)%nat -> (c < w)%nat ->
       (between poly r c -> upto (d r) c = 1) /\ (~ between poly r c -> upto (d r) c = 0)).
Proof.
  intros W SG B. unfold add_polygon.
  destruct (see_edges_spec h (edges poly) (filled h (Z.of_nat w)) (filled h (-1)) eq_refl eq_refl)
    as (mins & maxs & E & S1 & S2 & X).
  rewrite E. cbn [bind fst].
  assert (O : forall r, (r < h)%nat -> ordered w (at_ mins r) (at_ maxs r)).
  { intros r R. destruct (Z.le_gt_cases (Z.of_nat w) (at_ mins r)) as [L|L]; [right; left; auto|].
    right; right.
    destruct (X r R (at_ mins r)) as [M _]. destruct (proj1 M (Z.le_refl _)) as [M'|(k & V & K)].
    - simpl in M'. lia.
    - destruct (X r R k) as [M2 N]. assert (k <= at_ maxs r) by (apply N; right; exists k; split; auto; lia).
      assert (at_ mins r <= k) by (apply M2; right; exists k; split; auto; lia). lia. }
  destruct (mark_rows_spec h w (mins, maxs) W S1 S2 (seq 0 h) g) as (g' & F & A1 & A2 & _); auto.
  { apply seq_NoDup. }
  { intros r I. apply in_seq in I. lia. }
  { intros r I. apply in_seq in I. apply O. lia. }
  { intros r c I. apply in_seq in I. apply B. lia. }
  simpl in A2.
  exists g', (fun r => delta w (at_ mins r) (at_ maxs r)). rewrite F. repeat split; auto.
  - intros r c R C. apply A2; auto. apply in_seq. lia.
  - destruct (O r H) as [?|[?|?]].
    + unfold delta. replace (at_ maxs r + 1 <=? 0) with true; [simpl; lia|]. symmetry. apply Z.leb_le. auto.
    + unfold delta. replace (Z.of_nat w <=? at_ mins r) with true; [rewrite orb_true_r; lia|]. symmetry. apply Z.leb_le. auto.
    + apply delta_small. auto.
  - destruct (O r H) as [?|[?|?]].
    + unfold delta. replace (at_ maxs r + 1 <=? 0) with true; [simpl; lia|]. symmetry. apply Z.leb_le. auto.
    + unfold delta. replace (Z.of_nat w <=? at_ mins r) with true; [rewrite orb_true_r; lia|]. symmetry. apply Z.leb_le. auto.
    + apply delta_small. auto.
  - intros (c1 & c2 & V1 & V2 & K1 & K2). rewrite upto_delta by auto.
    destruct (X r H (Z.of_nat c)) as [M N].
    replace (at_ mins r <=? Z.of_nat c) with true; [replace (Z.of_nat c <=? at_ maxs r) with true|]; auto;
      symmetry; apply Z.leb_le; [apply N|apply M]; right; eauto.
  - intros NB. rewrite upto_delta by auto.
    destruct (Z.leb_spec (at_ mins r) (Z.of_nat c)) as [L|]; auto.
    destruct (Z.leb_spec (Z.of_nat c) (at_ maxs r)) as [L'|]; auto.
    exfalso. apply NB. destruct (X r H (Z.of_nat c)) as [M N].
    apply M in L. apply N in L'. simpl in L, L'.
    destruct L as [L|(c1 & V1 & K1)]; [lia|]. destruct L' as [L'|(c2 & V2 & K2)]; [lia|].
    exists c1, c2. repeat split; auto.
Qed.

(** ** Running sums *)
Lemma sum_cols_spec start : forall n k g,
  (start + k + n < size g)%nat ->
  (forall c, (c <= n)%nat -> -32768 <= upto (fun j => at_ g (start + k + j)%nat) c <= 32767) ->
  exists g', sum_cols g start (seq k n) = Some g' /\ size g' = size g /\
    (forall c, (c <= n)%nat -> at_ g' (start + k + c)%nat = upto (fun j => at_ g (start + k + j)%nat) c) /\
    (forall i, (i <= start + k \/ start + k + n < i)%nat -> at_ g' i = at_ g i).
Proof.
  induction n as [|n IH]; intros k g SZ B.
  - exists g. simpl. repeat split; auto. intros c C. assert (c = 0)%nat by lia. subst. simpl.
    f_equal; lia.
  - simpl seq. cbn [sum_cols]. rewrite read_in by lia. cbn [bind fst].
    pose proof (B 0%nat ltac:(lia)) as B0. simpl in B0. rewrite Nat.add_0_r in B0.
    pose proof (B 1%nat ltac:(lia)) as B1. simpl in B1. rewrite Nat.add_0_r in B1.
    rewrite bump_in by lia. cbn [bind fst].
    set (g1 := Vector (size g) _).
    assert (UP : forall c, upto (fun j => at_ g1 (start + S k + j)%nat) c = upto (fun j => at_ g (start + k + j)%nat) (S c)).
    { induction c as [|c IHc].
      - simpl. replace (start + S k + 0)%nat with (start + k + 1)%nat by lia. rewrite Nat.eqb_refl.
        replace (start + k + 0)%nat with (start + k)%nat by lia. lia.
      - change (upto (fun j => at_ g1 (start + S k + j)%nat) (S c)) with
          (upto (fun j => at_ g1 (start + S k + j)%nat) c + at_ g1 (start + S k + S c)%nat).
        change (upto (fun j => at_ g (start + k + j)%nat) (S (S c))) with
          (upto (fun j => at_ g (start + k + j)%nat) (S c) + at_ g (start + k + S (S c))%nat).
        rewrite IHc. f_equal. simpl.
        replace (start + S k + S c =? start + k + 1)%nat with false by (symmetry; apply Nat.eqb_neq; lia).
        f_equal. lia. }
    destruct (IH (S k) g1) as (g' & E & S' & A & O).
    { simpl. lia. }
    { intros c C. rewrite UP. apply B. lia. }
    exists g'. split; [exact E|]. split; [rewrite S'; reflexivity|]. split.
    + intros c C. destruct c as [|c].
      * rewrite O by lia. simpl. rewrite !Nat.add_0_r.
        replace (start + k =? start + k + 1)%nat with false by (symmetry; apply Nat.eqb_neq; lia). reflexivity.
      * replace (start + k + S c)%nat with (start + S k + c)%nat by lia. rewrite A by lia. apply UP.
    + intros i I. rewrite O by lia. simpl.
      replace (i =? start + k + 1)%nat with false by (symmetry; apply Nat.eqb_neq; lia). reflexivity.
Qed.

Lemma sum_rows_spec h w : forall rows g, NoDup rows -> (forall r, In r rows -> (r < h)%nat) ->
  size g = (h * w)%nat -> (0 < w)%nat ->
  (forall r c, In r rows -> (c < w)%nat -> -32768 <= upto (fun j => at_ g (w * r + j)%nat) c <= 32767) ->
  exists g', sum_rows g w rows = Some g' /\ size g' = (h * w)%nat /\
    (forall r c, In r rows -> (c < w)%nat -> at_ g' (w * r + c)%nat = upto (fun j => at_ g (w * r + j)%nat) c) /\
    (forall r c, ~ In r rows -> (c < w)%nat -> at_ g' (w * r + c)%nat = at_ g (w * r + c)%nat).
Proof.
  induction rows as [|row rows IH]; intros g ND LT SG W B.
  - exists g. simpl. repeat split; auto. intros ? ? [].
  - inversion ND as [|? ? N1 N2]; subst. cbn [sum_rows].
    assert (R : (row < h)%nat) by (apply LT; simpl; auto).
    destruct (sum_cols_spec (row * w) (w - 1) 0 g) as (g1 & E & S1 & A & O).
    { rewrite SG. nia. }
    { intros c C. pose proof (B row c (or_introl eq_refl) ltac:(lia)) as X.
      erewrite upto_ext; [exact X|]. intros j _. simpl. f_equal. lia. }
    rewrite E. cbn [bind fst].
    assert (OTHER : forall r c, r <> row -> (c < w)%nat -> at_ g1 (w * r + c)%nat = at_ g (w * r + c)%nat).
    { intros r c N C. apply O. nia. }
    destruct (IH g1) as (g2 & F & S2 & A2 & O2); auto.
    { intros r I. apply LT. simpl. auto. }
    { congruence. }
    { intros r c I C. assert (N : r <> row) by (intros ->; contradiction).
      erewrite upto_ext; [apply (B r c (or_intror I) C)|]. intros j J. apply OTHER; auto. lia. }
    exists g2. rewrite F. repeat split; auto.
    + intros r c [<-|I] C.
      * rewrite O2 by auto. rewrite (Nat.mul_comm w row) at 1. 
        specialize (A c ltac:(lia)). rewrite Nat.add_0_r in A. rewrite A.
        apply upto_ext. intros j _. f_equal. lia.
      * assert (N : r <> row) by (intros ->; contradiction).
        rewrite A2 by auto. apply upto_ext. intros j J. apply OTHER; auto. lia.
    + intros r c I C. simpl in I. rewrite O2 by tauto. apply OTHER; auto.
Qed.

(** ** The builder *)
Record sized (b : builder) : Prop := {
  sz_o : size (occupied_grid b) = (b_height b * b_width b)%nat;
  sz_i : size (invisible_grid b) = (b_height b * b_width b)%nat }.

(** After some polygons the running sums along the rows count those drawn over a cell. *)
Inductive counts : list (list point) -> nat -> nat -> Z -> Prop :=
| counts_nil r c : counts [] r c 0
| counts_in p l r c n : between p r c -> counts l r c n -> counts (l ++ [p]) r c (n + 1)
| counts_out p l r c n : ~ between p r c -> counts l r c n -> counts (l ++ [p]) r c n.

Definition holds (h w : nat) (g : vector) (polys : list (list point)) : Prop :=
  size g = (h * w)%nat /\
  (forall r c, (r < h)%nat -> (c < w)%nat -> Z.abs (at_ g (w * r + c)) <= Z.of_nat (length polys)) /\
  (forall r c, (r < h)%nat -> (c < w)%nat -> counts polys r c (upto (fun j => at_ g (w * r + j)%nat) c)).

Lemma upto_plus f g : forall c, upto (fun k => f k + g k) c = upto f c + upto g c.
Proof. induction c; simpl; lia. Qed.

Lemma between_dec p r c : between p r c \/ ~ between p r c.
Proof.
  destruct (add_polygon_spec (S r) (S c) (filled (S r * S c) 0) p ltac:(lia) eq_refl) as (g & d & _ & _ & _ & _ & H).
  { intros. simpl. lia. }
  destruct (see_edges_spec (S r) (edges p) (filled (S r) (Z.of_nat (S c))) (filled (S r) (-1)) eq_refl eq_refl)
    as (mins & maxs & _ & _ & _ & X).
  destruct (X r ltac:(lia) (Z.of_nat c)) as [M N]. clear - M N.
  destruct (Z.le_gt_cases (at_ mins r) (Z.of_nat c)) as [L|L].
  - destruct (Z.le_gt_cases (Z.of_nat c) (at_ maxs r)) as [L'|L'].
    + left. apply M in L. apply N in L'. cbn [filled at_] in L, L'.
      destruct L as [L|(c1 & V1 & K1)]; [lia|]. destruct L' as [L'|(c2 & V2 & K2)]; [lia|].
      exists c1, c2. repeat split; auto.
    + right. intros (c1 & c2 & V1 & V2 & K1 & K2).
      assert (Z.of_nat c <= at_ maxs r); [|lia]. apply N. right. eauto.
  - right. intros (c1 & c2 & V1 & V2 & K1 & K2).
    assert (at_ mins r <= Z.of_nat c); [|lia]. apply M. right. eauto.
Qed.

Lemma holds_add h w g polys p : (0 < w)%nat -> holds h w g polys -> (Z.of_nat (length polys) < 32767) ->
  exists g', add_polygon h w g p = Some g' /\ holds h w g' (polys ++ [p]).
Proof.
  intros W0 (S & B & C) L.
  destruct (add_polygon_spec h w g p W0 S) as (g' & d & E & S' & A & D & U).
  { intros r c R W. specialize (B r c R W). lia. }
  exists g'. split; [auto|]. split; [auto|]. split.
  - intros r c R W. rewrite A by auto. specialize (B r c R W). specialize (D r c R W).
    rewrite app_length. simpl. lia.
  - intros r c R W.
    rewrite (upto_ext _ (fun j => at_ g (w * r + j)%nat + d r j)) by (intros; apply A; auto; lia).
    rewrite upto_plus. destruct (U r c R W) as [U1 U2].
    destruct (between_dec p r c) as [Y|N].
    + rewrite (U1 Y). apply counts_in; auto.
    + rewrite (U2 N), Z.add_0_r. apply counts_out; auto.
Qed.

Lemma counts_bound l r c n : counts l r c n -> 0 <= n <= Z.of_nat (length l).
Proof. induction 1; rewrite ?app_length; simpl; lia. Qed.

Lemma counts_zero l r c n : counts l r c n -> (n = 0 <-> forall p, In p l -> ~ between p r c).
Proof.
  induction 1 as [r c|p l r c n Y C IH|p l r c n N C IH].
  - split; auto.
  - pose proof (counts_bound _ _ _ _ C). split; [lia|]. intros H'. exfalso.
    apply (H' p); auto. apply in_or_app. simpl. auto.
  - rewrite IH. split.
    + intros H p' I. apply in_app_or in I. destruct I as [I|[<-|[]]]; auto.
    + intros H p' I. apply H. apply in_or_app. auto.
Qed.

Lemma fill_spec oc ic o i : forall k, (k <= size o)%nat -> (k <= size i)%nat ->
  exists l, fill oc ic o i k = Some l /\ length l = k /\
    forall j, (j < k)%nat -> nth_error l j =
      Some (if at_ o j =? 0 then if at_ i j =? 0 then 0 else ic else oc).
Proof.
  induction k as [|k IH]; intros H1 H2.
  - exists []. simpl. repeat split; auto. intros. lia.
  - destruct IH as (l & E & L & A); [lia|lia|]. simpl. rewrite E. simpl.
    rewrite !read_in by lia. simpl. eexists. split; [reflexivity|].
    rewrite app_length. simpl. split; [lia|].
    intros j J. destruct (Nat.eq_dec j k) as [->|N].
    + rewrite nth_error_app2 by lia. replace (k - length l)%nat with 0%nat by lia. reflexivity.
    + rewrite nth_error_app1 by lia. apply A. lia.
Qed.

Definition progress (b : builder) (done : list (list point * list point)) : Prop :=
  holds (b_height b) (b_width b) (occupied_grid b) (map fst done) /\
  holds (b_height b) (b_width b) (invisible_grid b) (map snd done) /\
  primitive_count b = Z.of_nat (length done) /\ (Z.of_nat (length done) <= 32767).

Lemma add_all_spec : forall l b done, (0 < b_width b)%nat -> progress b done ->
  if (Z.of_nat (length done + length l) <=? 32767)
  then exists b', add_all b l = Returns b' /\ progress b' (done ++ l) /\
         b_height b' = b_height b /\ b_width b' = b_width b /\
         occupied_cost b' = occupied_cost b /\ invisible_cost b' = invisible_cost b
  else add_all b l = Throws.
Proof.
  induction l as [|[o i] l IH]; intros b done W P.
  - destruct P as (P1 & P2 & P3 & P4). simpl.
    replace (Z.of_nat (length done + 0) <=? 32767) with true by (symmetry; apply Z.leb_le; lia).
    exists b. rewrite app_nil_r. repeat split; auto; try apply P1; apply P2.
  - pose proof P as (P1 & P2 & P3 & P4). simpl length.
    destruct (Z.eq_dec (Z.of_nat (length done)) 32767) as [F|F].
    + replace (Z.of_nat (length done + S (length l)) <=? 32767) with false by (symmetry; apply Z.leb_gt; lia).
      simpl. unfold add. rewrite P3, F. reflexivity.
    + destruct (holds_add _ _ _ _ o W P1) as (og & EO & HO); [rewrite map_length; lia|].
      destruct (holds_add _ _ _ _ i W P2) as (ig & EI & HI); [rewrite map_length; lia|].
      simpl. unfold add. rewrite P3.
      replace (Z.of_nat (length done) =? 32767) with false by (symmetry; apply Z.eqb_neq; lia).
      rewrite EO, EI. rewrite int16_id by lia.
      set (b1 := Builder _ _ _ _ _ _ _).
      assert (PB : progress b1 (done ++ [(o, i)])).
      { unfold progress, b1. simpl. rewrite !map_app, app_length. simpl. repeat split; try apply HO; try apply HI; lia. }
      specialize (IH b1 _ W PB). rewrite app_length in IH. simpl in IH.
      replace (length done + 1 + length l)%nat with (length done + S (length l))%nat in IH by lia.
      destruct (Z.of_nat (length done + S (length l)) <=? 32767); auto.
      destruct IH as (b' & E & PB' & H1 & H2 & H3 & H4). exists b'. rewrite <- app_assoc in PB'.
      split; [exact E|]. split; [exact PB'|]. auto.
Qed.

Lemma reset_progress b : sized b -> progress (reset b) [].
Proof.
  intros [SO SI]. unfold progress, reset. simpl. repeat split; auto; simpl; intros; try lia.
  - replace (upto (fun _ => 0) c) with 0; [constructor|]. clear. induction c; simpl; lia.
  - replace (upto (fun _ => 0) c) with 0; [constructor|]. clear. induction c; simpl; lia.
Qed.

Lemma holds_sums h w g polys : holds h w g polys -> (Z.of_nat (length polys) <= 32767) ->
  exists g', sum_rows g w (seq 0 h) = Some g' /\ size g' = (h * w)%nat /\
    forall r c, (r < h)%nat -> (c < w)%nat ->
      (at_ g' (w * r + c)%nat = 0 <-> forall p, In p polys -> ~ between p r c).
Proof.
  intros (SZ & _ & C) L. destruct w as [|w].
  - assert (Z : forall rows, sum_rows g 0 rows = Some g).
    { induction rows as [|r rows IH]; simpl; auto. }
    exists g. rewrite Z. repeat split; auto; intros; lia.
  - destruct (sum_rows_spec h (S w) (seq 0 h) g) as (g' & E & S' & A & _); auto.
    + apply seq_NoDup.
    + intros r I. apply in_seq in I. lia.
    + lia.
    + intros r c I W. apply in_seq in I. pose proof (counts_bound _ _ _ _ (C r c ltac:(lia) W)). lia.
    + exists g'. split; [auto|]. split; [auto|]. intros r c R W. rewrite A; auto.
      * apply counts_zero. apply C; auto.
      * apply in_seq. lia.
Qed.

(** ** Values of the grid *)
Lemma grid_of_spec b prims : sized b -> (0 < b_width b)%nat ->
  if (Z.of_nat (length prims) <=? 32767)
  then exists l, grid_of b prims = Returns l /\ length l = (b_height b * b_width b)%nat /\
    forall r c, (r < b_height b)%nat -> (c < b_width b)%nat ->
      ((exists p, In p prims /\ between (fst p) r c) ->
         nth_error l (b_width b * r + c) = Some (occupied_cost b)) /\
      ((forall p, In p prims -> ~ between (fst p) r c) -> (exists p, In p prims /\ between (snd p) r c) ->
         nth_error l (b_width b * r + c) = Some (invisible_cost b)) /\
      ((forall p, In p prims -> ~ between (fst p) r c) -> (forall p, In p prims -> ~ between (snd p) r c) ->
         nth_error l (b_width b * r + c) = Some 0)
  else grid_of b prims = Throws.
Proof.
  intros SZ W. pose proof (add_all_spec prims (reset b) [] W (reset_progress b SZ)) as A. simpl length in A. simpl Nat.add in A.
  unfold grid_of. destruct (Z.of_nat (length prims) <=? 32767) eqn:LE; [|rewrite A; reflexivity].
  apply Z.leb_le in LE. destruct A as (b' & E & (PO & PI & _) & H1 & H2 & H3 & H4). simpl app in *.
  rewrite E. unfold build.
  destruct (holds_sums _ _ _ _ PI) as (i & EI & SI & ZI); [rewrite map_length; auto|].
  destruct (holds_sums _ _ _ _ PO) as (o & EO & SO & ZO); [rewrite map_length; auto|].
  rewrite EI. cbn [bind fst]. rewrite EO. cbn [bind fst].
  destruct (fill_spec (occupied_cost b') (invisible_cost b') o i (b_height b' * b_width b')) as (l & F & L & V); [lia|lia|].
  rewrite F. cbn [bind]. exists l. simpl in H1, H2, H3, H4. rewrite H1, H2, H3, H4 in *. split; [auto|]. split; [auto|]. intros r c R C. specialize (ZI r c R C). specialize (ZO r c R C). split; [|split].
  - intros (p & I & Y). rewrite V by (apply cell_in; auto).
    destruct (Z.eqb_spec (at_ o (b_width b * r + c)) 0) as [Q|Q]; auto.
    exfalso. apply (proj1 ZO Q (fst p)); auto. apply in_map; auto.
  - intros N (p & I & Y). rewrite V by (apply cell_in; auto).
    destruct (Z.eqb_spec (at_ o (b_width b * r + c)) 0) as [Q|Q].
    + destruct (Z.eqb_spec (at_ i (b_width b * r + c)) 0) as [Q'|Q']; auto.
      exfalso. apply (proj1 ZI Q' (snd p)); auto. apply in_map; auto.
    + exfalso. apply Q. apply ZO. intros p' I'. apply in_map_iff in I'.
      destruct I' as (x & <- & I'). auto.
  - intros N M. rewrite V by (apply cell_in; auto).
    destruct (Z.eqb_spec (at_ o (b_width b * r + c)) 0) as [Q|Q].
    + destruct (Z.eqb_spec (at_ i (b_width b * r + c)) 0) as [Q'|Q']; auto.
      exfalso. apply Q'. apply ZI. intros p' I'. apply in_map_iff in I'.
      destruct I' as (x & <- & I'). auto.
    + exfalso. apply Q. apply ZO. intros p' I'. apply in_map_iff in I'.
      destruct I' as (x & <- & I'). auto.
Qed.

Lemma bump_size g i d g' : bump g i d = Some g' -> size g' = size g.
Proof.
  unfold bump, read, write, bind. destruct (i <? size g)%nat; [|discriminate]. intros [= <-]. reflexivity.
Qed.

Lemma sum_rows_size w rows : forall g g', sum_rows g w rows = Some g' -> size g' = size g.
Proof.
  assert (C : forall start cols g g', sum_cols g start cols = Some g' -> size g' = size g).
  { intros start cols. induction cols as [|c cols IH]; intros g g' E; cbn [sum_cols] in E; [congruence|].
    destruct (read g (start + c)) as [v|]; [|discriminate]. cbn [bind] in E.
    destruct (bump g (start + c + 1) v) as [g1|] eqn:B; [|discriminate]. cbn [bind] in E.
    rewrite (IH _ _ E). eapply bump_size; eauto. }
  induction rows as [|r rows IH]; intros g g' E; cbn [sum_rows] in E; [congruence|].
  destruct (sum_cols g (r * w) (seq 0 (w - 1))) as [g1|] eqn:B; [|discriminate]. cbn [bind] in E.
  rewrite (IH _ _ E). eauto.
Qed.
