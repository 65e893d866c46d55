(** * C81-C84: the occupancy grid sensor *)

From Coq Require Import ZArith QArith Qround List Bool Lia Lqa.
From Verif Require Import M_Grid S_Grid P_Grid P_GridMark P_GridShape.
Import ListNotations.
Open Scope Z_scope.

(** ** C81: traversing a segment *)

(** The traversal ends, whatever the segment. *)
Theorem C81_ends : forall p q, exists r, forall n, (enough p q <= n)%nat -> traverse n p q = Some r.
Proof.
  intros p q. destruct (traverse_ends p q _ (le_n _)) as (r & T). exists r. intros n H.
  unfold traverse in *. eapply walk_more; eauto.
Qed.

(** A segment that starts at positive coordinates, and not on a line between cells which it then
    leaves upwards or to the right: the cells visited, with the cell of the end, are the cells the
    segment passes one after the other, starting with the cell of its start; consecutive ones
    share a side.  The cell of the end itself is not visited. *)
Theorem C81_traversal : forall p q : Q * Q,
  (0 <= fst p)%Q -> (0 <= snd p)%Q ->
  ((fst p < fst q)%Q -> forall z, ~ (fst p == inject_Z z)%Q) ->
  ((snd p < snd q)%Q -> forall z, ~ (snd p == inject_Z z)%Q) ->
  exists l e, traverse (enough p q) p q = Some (l, e) /\
    passes (along p q) 0 (l ++ [e]) /\ connected (l ++ [e]) /\
    hd_error (l ++ [e]) = Some (Qfloor (fst p), Qfloor (snd p)) /\
    (forall c, inside_cell c q -> c = e /\ ~ In c l).
Proof.
  intros p q X Y CX CY. destruct (traverse_ends p q _ (le_n _)) as ([l e] & T).
  assert (C : clear p q) by (repeat split; auto).
  destruct (traverse_passes p q _ l e C T) as (P & K & H).
  exists l, e. split; [auto|]. split; [auto|]. split; [auto|]. split; [auto|].
  intros c I. split.
  - pose proof (passes_end _ _ _ _ P) as E.
    assert (E' : in_cell e q) by (apply (in_cell_eq _ (along p q 1)); [simpl; ring|simpl; ring|auto]).
    destruct I as ((A & B) & (D & F)). destruct E' as ((A' & B') & (D' & F')).
    destruct c as [c r], e as [c' r']. cbn [fst snd] in *. f_equal.
    + assert (c < c' + 1) by (apply inj_lt; lra). assert (c' < c + 1) by (apply inj_lt; lra). lia.
    + assert (r < r' + 1) by (apply inj_lt; lra). assert (r' < r + 1) by (apply inj_lt; lra). lia.
  - intros J. exact (traverse_left p q _ l e C T c J I).
Qed.

(** In particular a cell with a point of the segment in its interior is visited or the last. *)
Theorem C81_none_missed : forall p q c u,
  (0 <= fst p)%Q -> (0 <= snd p)%Q ->
  ((fst p < fst q)%Q -> forall z, ~ (fst p == inject_Z z)%Q) ->
  ((snd p < snd q)%Q -> forall z, ~ (snd p == inject_Z z)%Q) ->
  (0 <= u <= 1)%Q -> inside_cell c (along p q u) ->
  exists l e, traverse (enough p q) p q = Some (l, e) /\ In c (l ++ [e]).
Proof.
  intros p q c u X Y CX CY U I.
  destruct (C81_traversal p q X Y CX CY) as (l & e & T & P & _). exists l, e. split; auto.
  destruct (passes_cover _ _ _ P u U) as (d & J & K).
  replace c with d; auto. destruct I as ((A & B) & (D & F)). destruct K as ((A' & B') & (D' & F')).
  destruct c as [c r], d as [c' r']. cbn [fst snd] in *. f_equal.
  - assert (c < c' + 1) by (apply inj_lt; lra). assert (c' < c + 1) by (apply inj_lt; lra). lia.
  - assert (r < r' + 1) by (apply inj_lt; lra). assert (r' < r + 1) by (apply inj_lt; lra). lia.
Qed.

(** From a point on a line, to the right: the cell (1, 0) is passed but (2, 1) is visited instead
    of (1, 1). *)
Definition C81_claim : Prop := forall p q c u,
  (0 <= fst p)%Q -> (0 <= snd p)%Q -> (0 <= u <= 1)%Q -> inside_cell c (along p q u) ->
  exists l e, traverse (enough p q) p q = Some (l, e) /\ In c (l ++ [e]).
Theorem C81_refuted : ~ C81_claim.
Proof.
  intros H.
  destruct (H (0, 1 # 2)%Q (5 # 2, 8 # 5)%Q (1, 1) (1 # 2)%Q) as (l & e & T & I).
  - simpl. lra.
  - simpl. lra.
  - lra.
  - vm_compute. repeat split.
  - vm_compute in T. injection T as <- <-. simpl in I.
    repeat (destruct I as [I|I]; [discriminate|]). exact I.
Qed.

Example C81_example :
  traverse (enough (1 # 2, 1 # 2) (11 # 4, 8 # 5))%Q (1 # 2, 1 # 2)%Q (11 # 4, 8 # 5)%Q =
  Some ([(0, 0); (1, 0); (1, 1)], (2, 1)) /\
  (forall z, ~ (1 # 2 == inject_Z z)%Q).
Proof.
  split; [vm_compute; reflexivity|]. intros z H. unfold Qeq in H. simpl in H. lia.
Qed.

(** ** C82: what is drawn *)

(** The builder of a sensor, as constructed or after any use, finished or not. *)
Inductive a_builder (h w : nat) (oc ic : Z) : builder -> Prop :=
| fresh : a_builder h w oc ic (construct h w oc ic)
| used b prims b' : a_builder h w oc ic b -> add_all (reset b) prims = Returns b' ->
    a_builder h w oc ic b'
| built b b' l : a_builder h w oc ic b -> build b = Some (b', l) -> a_builder h w oc ic b'.

Lemma a_builder_sized h w oc ic b : (0 < w)%nat -> a_builder h w oc ic b ->
  sized b /\ b_height b = h /\ b_width b = w /\ occupied_cost b = oc /\ invisible_cost b = ic.
Proof.
  intros W. induction 1 as [|b prims b' A (S & H1 & H2 & H3 & H4) E|b b' l A (S & H1 & H2 & H3 & H4) E].
  - repeat split; reflexivity.
  - assert (W' : (0 < b_width (reset b))%nat) by (simpl; lia).
    pose proof (add_all_spec prims (reset b) [] W' (reset_progress b S)) as X.
    simpl length in X. simpl Nat.add in X. destruct (Z.of_nat (length prims) <=? 32767); [|congruence].
    destruct X as (b1 & E1 & ((PO & _) & (PI & _) & _) & X1 & X2 & X3 & X4).
    rewrite E in E1. injection E1 as <-. simpl in *.
    repeat split; try congruence.
  - unfold build in E.
    destruct (sum_rows (invisible_grid b) _ _) as [i|] eqn:I; [|discriminate]. cbn [bind] in E.
    destruct (sum_rows (occupied_grid b) _ _) as [o|] eqn:O; [|discriminate]. cbn [bind] in E.
    destruct (fill _ _ _ _ _) as [l'|]; [|discriminate]. injection E as <- <-. simpl.
    apply sum_rows_size in I. apply sum_rows_size in O. destruct S as [SO SI].
    repeat split; simpl; congruence.
Qed.

Section pictures.
Variables (h w : nat) (oc ic : Z) (b : builder).
Hypothesis width : (0 < w)%nat.
Hypothesis B : a_builder h w oc ic b.

(** The value of a cell in the picture of some objects. *)
Definition shows (prims : list (list point * list point)) (r c : nat) (v : Z) : Prop :=
  exists l, grid_of b prims = Returns l /\ length l = (h * w)%nat /\ nth_error l (w * r + c) = Some v.

Lemma picture prims : Z.of_nat (length prims) <= 32767 ->
  forall r c, (r < h)%nat -> (c < w)%nat ->
      ((exists p, In p prims /\ between (fst p) r c) -> shows prims r c oc) /\
      ((forall p, In p prims -> ~ between (fst p) r c) -> (exists p, In p prims /\ between (snd p) r c) ->
         shows prims r c ic) /\
      ((forall p, In p prims -> ~ between (fst p) r c) -> (forall p, In p prims -> ~ between (snd p) r c) ->
         shows prims r c 0).
Proof.
  intros L r c R C. destruct (a_builder_sized h w oc ic b width B) as (S & H1 & H2 & H3 & H4).
  assert (W' : (0 < b_width b)%nat) by lia.
  pose proof (grid_of_spec b prims S W') as G. rewrite H1, H2, H3, H4 in G.
  replace (Z.of_nat (length prims) <=? 32767) with true in G by (symmetry; apply Z.leb_le; auto).
  destruct G as (l & E & LL & V). specialize (V r c R C). destruct V as (V1 & V2 & V3).
  split; [|split]; intros; exists l; auto.
Qed.

Lemma shows_unique prims r c v v' : shows prims r c v -> shows prims r c v' -> v = v'.
Proof. intros (l & E & _ & N) (l' & E' & _ & N'). congruence. Qed.

Lemma any_between (f : list point * list point -> list point) prims r c :
  (exists p, In p prims /\ between (f p) r c) \/ (forall p, In p prims -> ~ between (f p) r c).
Proof.
  induction prims as [|p prims IH]; [right; intros ? []|].
  destruct (between_dec (f p) r c) as [Y|N]; [left; exists p; simpl; auto|].
  destruct IH as [(q & I & Y)|A]; [left; exists q; simpl; auto|].
  right. intros q [<-|I]; auto.
Qed.

Lemma cases prims : Z.of_nat (length prims) <= 32767 ->
  forall r c, (r < h)%nat -> (c < w)%nat ->
   ((exists p, In p prims /\ between (fst p) r c) /\ shows prims r c oc) \/
   ((forall p, In p prims -> ~ between (fst p) r c) /\ (exists p, In p prims /\ between (snd p) r c) /\
         shows prims r c ic) \/
   ((forall p, In p prims -> ~ between (fst p) r c) /\ (forall p, In p prims -> ~ between (snd p) r c) /\
         shows prims r c 0).
Proof.
  intros L r c R C. destruct (picture prims L r c R C) as (A1 & A2 & A3).
  destruct (any_between fst prims r c) as [X|X]; [left; split; auto|]. right.
  destruct (any_between snd prims r c) as [Y|Y]; [left|right]; repeat (split; [assumption|]); auto.
Qed.

(** Every cell whose interior meets the inside of an object is occupied, if no vertex of the
    object's outline lies on a line between cells and the object is not all in one cell. *)
Theorem C82_objects_are_drawn : forall prims o i p r c,
  Z.of_nat (length prims) <= 32767 -> In (o, i) prims -> off_lines o -> ~ within_a_cell o ->
  inside o p -> inside_cell (Z.of_nat c, Z.of_nat r) p -> (r < h)%nat -> (c < w)%nat ->
  shows prims r c oc.
Proof.
  intros prims o i p r c L I O N P C R W. apply (picture prims L r c R W).
  exists (o, i). split; auto. simpl. apply inside_between with p; auto.
Qed.

(** A cell that is occupied lies between two cells of its row that touch the outline of one and
    the same object. *)
Theorem C82_only_objects_are_drawn : forall prims r c,
  oc <> ic -> oc <> 0 -> Z.of_nat (length prims) <= 32767 -> (r < h)%nat -> (c < w)%nat ->
  (forall o i, In (o, i) prims -> off_lines o) ->
  shows prims r c oc ->
  exists o i c1 c2 a1 a2, In (o, i) prims /\ c1 <= Z.of_nat c <= c2 /\
    on_outline o a1 /\ in_cell (c1, Z.of_nat r) a1 /\
    on_outline o a2 /\ in_cell (c2, Z.of_nat r) a2.
Proof.
  intros prims r c N1 N2 L R C O S.
  destruct (cases prims L r c R C) as [[(p & I & Y) _]|[(_ & _ & S')|(_ & _ & S')]].
  - destruct p as [o i]. destruct Y as (c1 & c2 & V1 & V2 & K). simpl in V1, V2.
    destruct (visits_outline o _ (O o i I) V1) as (a1 & A1 & A2).
    destruct (visits_outline o _ (O o i I) V2) as (a2 & B1 & B2).
    exists o, i, c1, c2, a1, a2. auto 8.
  - destruct (N1 (shows_unique _ _ _ _ _ S S')).
  - destruct (N2 (shows_unique _ _ _ _ _ S S')).
Qed.

(** An object that is all in one cell is never drawn. *)
Theorem C82_small_objects_are_not_drawn : forall prims r c,
  oc <> ic -> oc <> 0 -> Z.of_nat (length prims) <= 32767 -> (r < h)%nat -> (c < w)%nat ->
  (forall o i, In (o, i) prims -> off_lines o /\ within_a_cell o) -> ~ shows prims r c oc.
Proof.
  intros prims r c N1 N2 L R C O S.
  destruct (cases prims L r c R C) as [[([o i] & I & Y) _]|[(_ & _ & S')|(_ & _ & S')]].
  - destruct (O o i I) as [OL WC]. destruct Y as (c1 & c2 & V1 & _).
    exact (within_unvisited o _ OL WC V1).
  - destruct (N1 (shows_unique _ _ _ _ _ S S')).
  - destruct (N2 (shows_unique _ _ _ _ _ S S')).
Qed.

(** ** C83: many objects *)

(** A cell is occupied when it is occupied in the picture of some object alone, else invisible when
    it is in the picture of some object alone, else free. *)
Theorem C83_as_if_alone : forall prims r c,
  oc <> ic -> oc <> 0 -> ic <> 0 -> Z.of_nat (length prims) <= 32767 -> (r < h)%nat -> (c < w)%nat ->
  ((exists p, In p prims /\ shows [p] r c oc) -> shows prims r c oc) /\
  ((forall p, In p prims -> ~ shows [p] r c oc) -> (exists p, In p prims /\ shows [p] r c ic) ->
     shows prims r c ic) /\
  ((forall p, In p prims -> shows [p] r c 0) -> shows prims r c 0).
Proof.
  intros prims r c N1 N2 N3 L R C.
  assert (ONE : forall p, (between (fst p) r c /\ shows [p] r c oc) \/
     (~ between (fst p) r c /\ between (snd p) r c /\ shows [p] r c ic) \/
     (~ between (fst p) r c /\ ~ between (snd p) r c /\ shows [p] r c 0)).
  { intros p. destruct (cases [p] ltac:(simpl; lia) r c R C)
      as [[(q & [<-|[]] & Y) S]|[(A & (q & [<-|[]] & Y) & S)|(A & A' & S)]]; auto.
    - right. left. repeat split; auto. apply A. simpl. auto.
    - right. right. repeat split; auto; [apply A|apply A']; simpl; auto. }
  destruct (picture prims L r c R C) as (P1 & P2 & P3). split; [|split].
  - intros (p & I & S). apply P1. exists p. split; auto.
    destruct (ONE p) as [[Y _]|[(_ & _ & S')|(_ & _ & S')]]; auto.
    + destruct (N1 (shows_unique _ _ _ _ _ S S')).
    + destruct (N2 (shows_unique _ _ _ _ _ S S')).
  - intros A (p & I & S). apply P2.
    + intros q J Y. apply (A q J). destruct (ONE q) as [[_ S']|[(N & _)|(N & _)]]; auto; contradiction.
    + exists p. split; auto. destruct (ONE p) as [[_ S']|[(_ & Y & _)|(_ & _ & S')]]; auto.
      * destruct (N1 (shows_unique _ _ _ _ _ S' S)).
      * destruct (N3 (shows_unique _ _ _ _ _ S S')).
  - intros A. apply P3; intros p I Y; specialize (A p I);
      destruct (ONE p) as [[Y' S']|[(N & Y' & S')|(N & N' & S')]]; try contradiction.
    + destruct (N2 (shows_unique _ _ _ _ _ S' A)).
    + destruct (N2 (shows_unique _ _ _ _ _ S' A)).
    + destruct (N3 (shows_unique _ _ _ _ _ S' A)).
Qed.

(** Up to 32767 objects make a picture, without undefined behaviour; more raise an error. *)
Theorem C83_number_of_objects : forall prims,
  (Z.of_nat (length prims) <= 32767 -> exists l, grid_of b prims = Returns l /\ length l = (h * w)%nat) /\
  (32767 < Z.of_nat (length prims) -> grid_of b prims = Throws).
Proof.
  intros prims. destruct (a_builder_sized h w oc ic b width B) as (S & H1 & H2 & H3 & H4).
  assert (W' : (0 < b_width b)%nat) by lia.
  pose proof (grid_of_spec b prims S W') as G. rewrite H1, H2, H3, H4 in G. split; intros L.
  - replace (Z.of_nat (length prims) <=? 32767) with true in G by (symmetry; apply Z.leb_le; auto).
    destruct G as (l & E & LL & _). eauto.
  - replace (Z.of_nat (length prims) <=? 32767) with false in G by (symmetry; apply Z.leb_gt; lia).
    exact G.
Qed.

(** What was drawn before does not matter. *)
Theorem C83_nothing_left_over : forall prims,
  grid_of b prims = grid_of (construct h w oc ic) prims.
Proof.
  intros prims. destruct (a_builder_sized h w oc ic b width B) as (S & H1 & H2 & H3 & H4).
  unfold grid_of. replace (reset b) with (reset (construct h w oc ic)); auto.
  unfold reset, construct. simpl. rewrite (sz_o b S), (sz_i b S), H1, H2, H3, H4. reflexivity.
Qed.
End pictures.

(** A triangle with a vertex on a line: a cell with points of its inside stays free. *)
Definition C82_claim : Prop := forall h w oc ic o p r c,
  (0 < w)%nat -> (forall v, In v o -> (0 <= fst v /\ 0 <= snd v)%Q) -> ~ within_a_cell o ->
  inside o p -> inside_cell (Z.of_nat c, Z.of_nat r) p -> (r < h)%nat -> (c < w)%nat ->
  shows h w (construct h w oc ic) [(o, [])] r c oc.
Definition triangle : list point := [(7 # 2, 1); (1 # 2, 5 # 2); (7 # 2, 5 # 2)]%Q.
Theorem C82_refuted : ~ C82_claim.
Proof.
  intros H.
  destruct (H 4%nat 4%nat 100 50 triangle (29 # 10, 9 # 5)%Q 1%nat 2%nat) as (l & E & _ & N); try lia.
  - intros v [<-|[<-|[<-|[]]]]; simpl; lra.
  - intros ([c r] & A).
    pose proof (A (7 # 2, 5 # 2)%Q ltac:(simpl; auto)) as ((_ & A2) & _).
    pose proof (A (1 # 2, 5 # 2)%Q ltac:(simpl; auto)) as ((A4 & _) & _). cbn [fst snd] in *.
    rewrite inject_Z_plus in A2. change (inject_Z 1) with 1%Q in A2. lra.
  - split; [left|split].
    + intros s [<-|[<-|[<-|[]]]]; vm_compute; discriminate.
    + exists (7 # 2, 1)%Q. split; [simpl; auto|]. simpl. lra.
    + exists (7 # 2, 5 # 2)%Q. split; [simpl; auto|]. simpl. lra.
  - vm_compute. repeat split.
  - vm_compute in E. injection E as <-. vm_compute in N. discriminate.
Qed.

(** The hypotheses are met: a triangle with its vertices off the lines. *)
Definition slanted : list point := [(7 # 2, 11 # 10); (1 # 2, 5 # 2); (7 # 2, 5 # 2)]%Q.
Example C82_example :
  off_lines slanted /\ ~ within_a_cell slanted /\ inside slanted (29 # 10, 9 # 5)%Q /\
  inside_cell (2, 1) (29 # 10, 9 # 5)%Q /\
  grid_of (construct 4 4 100 50) [(slanted, [])] =
  Returns [0; 0; 0; 0; 0; 100; 100; 100; 100; 100; 100; 100; 0; 0; 0; 0].
Proof.
  split; [|split; [|split; [|split]]].
  - intros v [<-|[<-|[<-|[]]]]; simpl; (split; [lra|]); intros z; split; intros E; unfold Qeq in E; simpl in E; lia.
  - intros ([c r] & A).
    pose proof (A (7 # 2, 5 # 2)%Q ltac:(simpl; auto)) as ((_ & A2) & _).
    pose proof (A (1 # 2, 5 # 2)%Q ltac:(simpl; auto)) as ((A4 & _) & _). cbn [fst snd] in *.
    rewrite inject_Z_plus in A2. change (inject_Z 1) with 1%Q in A2. lra.
  - split; [left|split].
    + intros s [<-|[<-|[<-|[]]]]; vm_compute; discriminate.
    + exists (7 # 2, 11 # 10)%Q. split; [simpl; auto|]. simpl. lra.
    + exists (7 # 2, 5 # 2)%Q. split; [simpl; auto|]. simpl. lra.
  - vm_compute. repeat split.
  - vm_compute. reflexivity.
Qed.

(** Two overlapping objects, one with an invisible area. *)
Example C83_example :
  let shadow := [(5 # 2, 1 # 2); (5 # 2, 7 # 2); (7 # 2, 7 # 2); (7 # 2, 1 # 2)]%Q in
  grid_of (construct 4 4 100 50) [(slanted, shadow); (slanted, [])] =
  Returns [0; 0; 50; 50; 0; 100; 100; 100; 100; 100; 100; 100; 0; 0; 50; 50].
Proof. vm_compute. reflexivity. Qed.

(** ** C84: the message *)

(** A point of the world drawn in the cell [c] lies where the message places this cell, if the grid
    has as many rows as columns. *)
Theorem C84_placed : forall resolution n ego p c, (0 < resolution)%Q ->
  in_cell c (pixel_of_world resolution n n ego p) <->
  (let o := message_origin resolution n n ego in
   fst o + inject_Z (fst c) * resolution <= fst p <= fst o + inject_Z (fst c + 1) * resolution /\
   snd o + inject_Z (snd c) * resolution <= snd p <= snd o + inject_Z (snd c + 1) * resolution)%Q.
Proof.
  intros res n ego p c R. unfold in_cell, pixel_of_world, to_pixel, message_origin. cbn [fst snd].
  set (k := inject_Z (Z.of_nat n)). clearbody k.
  assert (A : forall z x y, (inject_Z z <= (x - y + k * res / 2) / res <-> y - (1 # 2) * k * res + inject_Z z * res <= x)%Q).
  { intros z x y. split; intros H.
    - assert (inject_Z z * res <= (x - y + k * res / 2) / res * res)%Q by (apply Qmult_le_compat_r; lra).
      setoid_replace ((x - y + k * res / 2) / res * res)%Q with (x - y + k * res / 2)%Q in H0 by (field; lra).
      setoid_replace (k * res / 2)%Q with ((1 # 2) * k * res)%Q in H0 by field. lra.
    - apply Qle_shift_div_l; [lra|].
      setoid_replace (k * res / 2)%Q with ((1 # 2) * k * res)%Q by field. lra. }
  assert (B : forall z x y, ((x - y + k * res / 2) / res <= inject_Z z <-> x <= y - (1 # 2) * k * res + inject_Z z * res)%Q).
  { intros z x y. split; intros H.
    - assert ((x - y + k * res / 2) / res * res <= inject_Z z * res)%Q by (apply Qmult_le_compat_r; lra).
      setoid_replace ((x - y + k * res / 2) / res * res)%Q with (x - y + k * res / 2)%Q in H0 by (field; lra).
      setoid_replace (k * res / 2)%Q with ((1 # 2) * k * res)%Q in H0 by field. lra.
    - apply Qle_shift_div_r; [lra|].
      setoid_replace (k * res / 2)%Q with ((1 # 2) * k * res)%Q by field. lra. }
  rewrite !A, !B. reflexivity.
Qed.

(** It is misplaced otherwise: the message's origin has height and width exchanged. *)
Definition C84_claim : Prop := forall resolution height width ego p c, (0 < resolution)%Q ->
  in_cell c (pixel_of_world resolution height width ego p) ->
  (let o := message_origin resolution height width ego in
   fst o + inject_Z (fst c) * resolution <= fst p <= fst o + inject_Z (fst c + 1) * resolution)%Q.
Theorem C84_refuted : ~ C84_claim.
Proof.
  intros H. pose proof (H 1%Q 2%nat 4%nat (0, 0)%Q (1 # 2, 1 # 2)%Q (2, 1)) as X.
  assert (Y : in_cell (2, 1) (pixel_of_world 1 2 4 (0, 0) (1 # 2, 1 # 2))%Q) by (vm_compute; repeat split; discriminate).
  specialize (X ltac:(lra) Y). vm_compute in X. destruct X as [X _]. apply X. reflexivity.
Qed.

(** Drawn are exactly the other entities the lidar detected, and within range if asked for. *)
Theorem C84_entities : forall me by_range range2 l lidar ns, drawn me by_range range2 l lidar = Some ns ->
  NoDup ns /\
  (exists s, In s l /\ st_name s = me) /\
  forall n, In n ns <->
    exists s, In s l /\ st_name s = n /\ n <> me /\ In n lidar /\
              (by_range = true -> (st_distance2 s <= range2)%Q).
Proof.
  intros me by_range range2 l lidar ns H. unfold drawn in H.
  destruct (repeated me [] l) eqn:R; [discriminate|].
  destruct (existsb (fun s => (me =? st_name s)%nat) l) eqn:E; [|discriminate]. simpl negb in H. cbv iota in H.
  assert (U : forall l seen, repeated me seen l = false ->
    forall s, In s l -> st_name s <> me -> ~ In (st_name s) seen).
  { clear. induction l as [|x l IH]; intros seen R s I N S; [contradiction|]. simpl in R. destruct I as [<-|I].
    - replace (me =? st_name x)%nat with false in R by (symmetry; apply Nat.eqb_neq; auto).
      apply orb_false_iff in R. destruct R as [R _].
      assert (existsb (Nat.eqb (st_name x)) seen = true); [|congruence].
      apply existsb_exists. exists (st_name x). split; auto. apply Nat.eqb_refl.
    - destruct (me =? st_name x)%nat; [eapply IH; eauto|].
      apply orb_false_iff in R. destruct R as [_ R]. apply (IH _ R s I N). simpl. auto. }
  assert (UNIQ : forall l seen, repeated me seen l = false ->
    forall f, NoDup (map st_name (filter (fun s => negb (me =? st_name s)%nat && f s) l))).
  { clear - U. induction l as [|x l IH]; intros seen R f; simpl; [constructor|].
    simpl in R. destruct (me =? st_name x)%nat eqn:M; [simpl; eauto|].
    apply orb_false_iff in R. destruct R as [_ R]. simpl. destruct (f x); [|eauto].
    simpl. constructor; [|eauto]. intros I. apply in_map_iff in I. destruct I as (s & EQ & I).
    apply filter_In in I. destruct I as [I N]. apply andb_true_iff in N. destruct N as [N _].
    apply negb_true_iff, Nat.eqb_neq in N.
    apply (U l _ R s I); auto. simpl. auto. }
  assert (SAME : forall s s', In s l -> In s' l -> st_name s = st_name s' -> st_name s <> me -> s = s').
  { assert (G : forall l seen, repeated me seen l = false -> forall s s', In s l -> In s' l ->
       st_name s = st_name s' -> st_name s <> me -> s = s').
    { clear - U. induction l as [|x l IH]; intros seen R s s' I I' EQ N; [contradiction|].
      simpl in R. destruct (me =? st_name x)%nat eqn:M.
      - apply Nat.eqb_eq in M. destruct I as [<-|I]; [congruence|]. destruct I' as [<-|I']; [congruence|]. eauto.
      - apply orb_false_iff in R. destruct R as [_ R].
        destruct I as [<-|I], I' as [<-|I']; auto.
        + exfalso. apply (U _ _ R s' I'); [congruence|]. simpl. auto.
        + exfalso. apply (U _ _ R s I); [congruence|]. simpl. auto.
        + eauto. }
    intros. eapply G; eauto. }
  assert (MEM : forall n m, existsb (Nat.eqb n) m = true <-> In n m).
  { intros n m. rewrite existsb_exists. split.
    - intros (x & I & Q). apply Nat.eqb_eq in Q. subst. auto.
    - intros I. exists n. split; auto. apply Nat.eqb_refl. }
  split; [|split].
  - destruct (if by_range then _ else _) as [det|]; [|discriminate]. injection H as <-.
    eapply UNIQ; eauto.
  - apply existsb_exists in E. destruct E as (s & I & Q). apply Nat.eqb_eq in Q. eauto.
  - intros n. destruct by_range.
    + unfold detected_objects in H.
      destruct (existsb (fun s => st_ego s && (st_name s =? me)%nat) l); [|discriminate]. injection H as <-.
      rewrite in_map_iff. split.
      * intros (s & <- & I). apply filter_In in I. destruct I as [I Q]. apply andb_true_iff in Q.
        destruct Q as [Q1 Q2]. apply negb_true_iff, Nat.eqb_neq in Q1. apply MEM in Q2.
        apply in_map_iff in Q2. destruct Q2 as (s' & EQ & I'). apply filter_In in I'.
        destruct I' as [I' Q]. apply andb_true_iff in Q. destruct Q as [Q D]. apply andb_true_iff in Q.
        destruct Q as [Q _]. apply MEM in Q. rewrite EQ in Q.
        rewrite (SAME s' s I' I EQ) in D by congruence.
        exists s. repeat split; auto. intros _. apply Qle_bool_iff. exact D.
      * intros (s & I & <- & N & J & D). exists s. split; auto. apply filter_In. split; auto.
        apply andb_true_iff. split; [apply negb_true_iff, Nat.eqb_neq; auto|]. apply MEM.
        apply in_map_iff. exists s. split; auto. apply filter_In. split; auto.
        apply andb_true_iff. split; [apply andb_true_iff; split|].
        -- apply MEM. auto.
        -- apply negb_true_iff, Nat.eqb_neq. auto.
        -- apply Qle_bool_iff. auto.
    + injection H as <-. rewrite in_map_iff. split.
      * intros (s & <- & I). apply filter_In in I. destruct I as [I Q]. apply andb_true_iff in Q.
        destruct Q as [Q1 Q2]. apply negb_true_iff, Nat.eqb_neq in Q1. apply MEM in Q2.
        exists s. repeat split; auto. discriminate.
      * intros (s & I & <- & N & J & _). exists s. split; auto. apply filter_In. split; auto.
        apply andb_true_iff. split; [apply negb_true_iff, Nat.eqb_neq; auto|apply MEM; auto].
Qed.

(** It fails only when two other entities have the same name, when the entity with the sensor is
    missing, or when the range matters and that entity is not an ego. *)
Theorem C84_fails : forall me by_range range2 l lidar, drawn me by_range range2 l lidar = None ->
  (exists a s b s' d, l = a ++ s :: b ++ s' :: d /\ st_name s = st_name s' /\ st_name s <> me) \/
  (forall s, In s l -> st_name s <> me) \/
  (by_range = true /\ forall s, In s l -> st_name s = me -> st_ego s = false).
Proof.
  intros me by_range range2 l lidar H. unfold drawn in H.
  destruct (repeated me [] l) eqn:R.
  - left.
    assert (G : forall l seen, repeated me seen l = true ->
      (exists a s b, l = a ++ s :: b /\ In (st_name s) seen /\ st_name s <> me) \/
      (exists a s b s' d, l = a ++ s :: b ++ s' :: d /\ st_name s = st_name s' /\ st_name s <> me)).
    { clear. induction l as [|x l IH]; intros seen R; simpl in R; [discriminate|].
      destruct (me =? st_name x)%nat eqn:M.
      - destruct (IH seen R) as [(a & s & b & -> & I & N)|(a & s & b & s' & d & -> & Q & N)].
        + left. exists (x :: a), s, b. auto.
        + right. exists (x :: a), s, b, s', d. auto.
      - apply Nat.eqb_neq in M. apply orb_true_iff in R. destruct R as [R|R].
        + apply existsb_exists in R. destruct R as (n & I & Q). apply Nat.eqb_eq in Q. subst n.
          left. exists [], x, l. auto.
        + destruct (IH _ R) as [(a & s & b & -> & [I|I] & N)|(a & s & b & s' & d & -> & Q & N)].
          * right. exists [], x, a, s, b. auto.
          * left. exists (x :: a), s, b. auto.
          * right. exists (x :: a), s, b, s', d. auto. }
    destruct (G l [] R) as [(a & s & b & _ & [] & _)|X]; auto.
  - right. destruct (existsb (fun s => (me =? st_name s)%nat) l) eqn:E; simpl in H.
    + right. destruct by_range; [|discriminate]. split; auto.
      unfold detected_objects in H. destruct (existsb (fun s => st_ego s && (st_name s =? me)%nat) l) eqn:F; [discriminate|].
      intros s I Q. destruct (st_ego s) eqn:G; auto.
      assert (existsb (fun s => st_ego s && (st_name s =? me)%nat) l = true); [|congruence].
      apply existsb_exists. exists s. split; auto. rewrite G, Q, Nat.eqb_refl. reflexivity.
    + left. intros s I Q.
      assert (existsb (fun s => (me =? st_name s)%nat) l = true); [|congruence].
      apply existsb_exists. exists s. split; auto. rewrite Q. apply Nat.eqb_refl.
Qed.

Example C84_example :
  drawn 0 true 100 [Status 0 true 0; Status 1 false 50; Status 2 false 200; Status 3 false 10] [1; 2]%nat
  = Some [1%nat] /\
  drawn 0 false 100 [Status 0 true 0; Status 1 false 50; Status 2 false 200; Status 3 false 10] [1; 2]%nat
  = Some [1; 2]%nat /\
  drawn 0 true 100 [Status 0 true 0; Status 1 false 50; Status 1 false 200] [1; 2]%nat = None.
Proof. repeat split. Qed.

Print Assumptions C81_ends.
Print Assumptions C81_traversal.
Print Assumptions C81_none_missed.
Print Assumptions C81_refuted.
Print Assumptions C82_objects_are_drawn.
Print Assumptions C82_only_objects_are_drawn.
Print Assumptions C82_small_objects_are_not_drawn.
Print Assumptions C82_refuted.
Print Assumptions C83_as_if_alone.
Print Assumptions C83_number_of_objects.
Print Assumptions C83_nothing_left_over.
Print Assumptions C84_placed.
Print Assumptions C84_refuted.
Print Assumptions C84_entities.
Print Assumptions C84_fails.
