(** * Proofs about the cells visited along an outline *)

From Coq Require Import ZArith QArith Qround List Bool Lia Lqa.
From Verif Require Import M_Grid S_Grid P_Grid P_GridMark.
Import ListNotations.
Open Scope Z_scope.

(** ** A segment *)
Definition clear (p q : point) : Prop :=
  (0 <= fst p /\ 0 <= snd p)%Q /\
  ((fst p < fst q)%Q -> forall z, ~ (fst p == inject_Z z)%Q) /\
  ((snd p < snd q)%Q -> forall z, ~ (snd p == inject_Z z)%Q).

Lemma begin_both p q : clear p q ->
  both (fst p) (snd p) (fst q - fst p) (snd q - snd p)
       (begin (fst p) (snd p) (fst q - fst p) (snd q - snd p)) 0.
Proof.
  intros ((X & Y) & CX & CY). split; simpl; apply axis_begin; auto; intros V; [apply CX|apply CY]; lra.
Qed.

Lemma traverse_passes p q n l e : clear p q -> traverse n p q = Some (l, e) ->
  passes (along p q) 0 (l ++ [e]) /\ connected (l ++ [e]) /\
  hd_error (l ++ [e]) = Some (Qfloor (fst p), Qfloor (snd p)).
Proof.
  intros C T. pose proof (begin_both p q C) as B. unfold traverse in T.
  assert (Z : (0 <= 1)%Q) by lra.
  destruct (walk_passes _ _ _ _ n _ 0 l e B Z T) as (P & K & H).
  split; [exact P|]. split; [exact K|]. rewrite H. simpl. unfold cut.
  destruct C as ((X & Y) & _). apply qle_spec in X. apply qle_spec in Y. rewrite X, Y. reflexivity.
Qed.

Lemma passes_cover f t l : passes f t l -> forall u, (t <= u <= 1)%Q -> exists c, In c l /\ in_cell c (f u).
Proof.
  induction 1 as [t c L H|t t' c l L1 L2 H P IH]; intros u [U1 U2].
  - exists c. simpl. auto.
  - destruct (Qlt_le_dec t' u) as [X|X].
    + destruct (IH u) as (d & I & D); [lra|]. exists d. simpl. auto.
    + exists c. split; [simpl; auto|]. apply H. lra.
Qed.

Lemma passes_touch f t l : passes f t l -> forall c, In c l -> exists u, (t <= u <= 1)%Q /\ in_cell c (f u).
Proof.
  induction 1 as [t c L H|t t' c l L1 L2 H P IH]; intros d I.
  - destruct I as [<-|[]]. exists t. split; [lra|]. apply H. lra.
  - destruct I as [<-|I].
    + exists t. split; [lra|]. apply H. lra.
    + destruct (IH d I) as (u & U & D). exists u. split; [lra|auto].
Qed.

Lemma passes_end f t l e : passes f t (l ++ [e]) -> in_cell e (f 1%Q).
Proof.
  remember (l ++ [e]) as m eqn:M. intros P. revert l M.
  induction P as [t c L H|t t' c m L1 L2 H P IH]; intros l M.
  - destruct l as [|x [|y l]]; simpl in M; try discriminate; injection M as ->. apply H. lra.
  - destruct l as [|x l]; simpl in M.
    + injection M as -> ->. inversion P.
    + injection M as -> ->. eapply IH. reflexivity.
Qed.

Lemma in_cell_eq c p q : (fst p == fst q)%Q -> (snd p == snd q)%Q -> in_cell c p -> in_cell c q.
Proof. unfold in_cell. intros A B (H1 & H2). rewrite <- A, <- B. auto. Qed.

(** A cell visited has been left by the end. *)
Lemma walk_left sx sy vx vy : forall n i T l e, both sx sy vx vy i T ->
  walk n vx vy i = Some (l, e) -> forall c, In c l -> ~ inside_cell c (place sx sy vx vy 1).
Proof.
  induction n as [|n IH]; intros i T l e B W c I; simpl in W.
  - destruct (unfinished i); [discriminate|]. injection W as <- <-. contradiction.
  - destruct (unfinished i) eqn:U; [|injection W as <- <-; contradiction].
    destruct (walk n vx vy (next vx vy i)) as [[l' e']|] eqn:W'; [|discriminate].
    injection W as <- <-. destruct I as [<-|I].
    + intros [[X1 X2] [Y1 Y2]]. simpl in *. rewrite inj_succ in X2, Y2.
      unfold unfinished in U. apply orb_true_iff in U. destruct B as [BX BY].
      destruct U as [U|U].
      * destruct (tx i) as [q|] eqn:E; [|discriminate]. simpl in U. apply qle_spec in U.
        destruct BX as [(P & N & Z) O].
        destruct (sign_cases vx) as [V|[V|V]].
        -- destruct (P V) as (_ & q' & Q & S). injection Q as <-. nra.
        -- destruct (N V) as (_ & q' & Q & S). injection Q as <-. nra.
        -- destruct (Z V). discriminate.
      * destruct (ty i) as [q|] eqn:E; [|discriminate]. simpl in U. apply qle_spec in U.
        destruct BY as [(P & N & Z) O].
        destruct (sign_cases vy) as [V|[V|V]].
        -- destruct (P V) as (_ & q' & Q & S). injection Q as <-. nra.
        -- destruct (N V) as (_ & q' & Q & S). injection Q as <-. nra.
        -- destruct (Z V). discriminate.
    + destruct (step_both _ _ _ _ i T B U) as (q & _ & _ & Bq & _).
      eapply IH; eauto.
Qed.

Lemma traverse_left p q n l e : clear p q -> traverse n p q = Some (l, e) ->
  forall c, In c l -> ~ inside_cell c q.
Proof.
  intros C T c I H. unfold traverse in T.
  apply (walk_left _ _ _ _ n _ 0 l e (begin_both p q C) T c I).
  unfold inside_cell, place in *. simpl.
  setoid_replace (fst p + 1 * (fst q - fst p))%Q with (fst q) by ring.
  setoid_replace (snd p + 1 * (snd q - snd p))%Q with (snd q) by ring. exact H.
Qed.

(** ** Cells of points off the lines *)
Definition off (v : point) : Prop :=
  (0 <= fst v /\ 0 <= snd v)%Q /\ forall z, ~ (fst v == inject_Z z)%Q /\ ~ (snd v == inject_Z z)%Q.

Lemma off_clear p q : off p -> clear p q.
Proof. intros (A & B). split; [auto|]. split; intros _ z; apply B. Qed.

Lemma floor_of z s : (inject_Z z <= s)%Q -> (s < inject_Z (z + 1))%Q -> Qfloor s = z.
Proof.
  intros A B. apply (inj_between _ _ s); [apply floor_bounds|]. rewrite inj_succ in B. auto.
Qed.

Lemma off_inside c v : off v -> in_cell c v -> inside_cell c v.
Proof.
  intros (_ & N) ((A & B) & (C & D)).
  destruct (N (fst c)) as [N1 _]. destruct (N (fst c + 1)) as [N2 _].
  destruct (N (snd c)) as [_ N3]. destruct (N (snd c + 1)) as [_ N4].
  repeat split; apply Qle_lteq in A, B, C, D;
    destruct A, B, C, D; auto; exfalso;
    solve [apply N1; lra|apply N2; lra|apply N3; lra|apply N4; lra].
Qed.

Lemma off_cell c v : off v -> in_cell c v -> c = (Qfloor (fst v), Qfloor (snd v)).
Proof.
  intros O I. apply off_inside in I; auto. destruct I as ((A & B) & (C & D)). destruct c as [x y]. simpl in *.
  f_equal; symmetry; apply floor_of; lra.
Qed.

(** ** Going round *)
Lemma chain_from (B : point -> Prop) z : forall r p,
  (forall a b, In (a, b) (combine (p :: r) (r ++ [z])) -> B a -> B b) ->
  B p -> forall w, In w (r ++ [z]) -> B w.
Proof.
  induction r as [|x r IH]; intros p H P w I; simpl in *.
  - destruct I as [<-|[]]. eapply H; eauto.
  - assert (X : B x) by (eapply H; eauto). destruct I as [<-|I]; auto.
    apply (IH x); auto. intros a b J. apply H. auto.
Qed.

Lemma chain_reach (B : point -> Prop) z : forall r p,
  (forall a b, In (a, b) (combine (p :: r) (r ++ [z])) -> B a -> B b) ->
  forall v, In v (p :: r) -> B v -> B z.
Proof.
  induction r as [|x r IH]; intros p H v I V.
  - destruct I as [<-|[]]. eapply H; simpl; eauto.
  - destruct I as [<-|I].
    + apply (chain_from B z (x :: r) p H V). apply in_or_app. simpl. auto.
    + apply (IH x) with v; auto. intros a b J. apply H. simpl. auto.
Qed.

Lemma round (B : point -> Prop) poly :
  (forall a b, In (a, b) (edges poly) -> B a -> B b) ->
  forall v, In v poly -> B v -> forall w, In w poly -> B w.
Proof.
  destruct poly as [|p r]; intros H v I V w J; [contradiction|].
  assert (P : B p) by exact (chain_reach B p r p H v I V).
  destruct J as [<-|J]; auto. apply (chain_from B p r p H P). apply in_or_app. auto.
Qed.

Lemma edges_in poly a b : In (a, b) (edges poly) -> In a poly /\ In b poly.
Proof.
  destruct poly as [|p r]; intros I; [contradiction|].
  pose proof (in_combine_l _ _ _ _ I). pose proof (in_combine_r _ _ _ _ I) as R. split; auto.
  apply in_app_or in R. simpl in R |- *. tauto.
Qed.

Lemma edges_sides poly : edges poly = sides poly.
Proof. reflexivity. Qed.

Lemma cell_dec (a b : Z * Z) : {a = b} + {a <> b}.
Proof. decide equality; apply Z.eq_dec. Qed.

Lemma visited_in_dec : forall es c, visited_in es c \/ ~ visited_in es c.
Proof.
  induction es as [|[p q] es IH]; intros c.
  - right. intros (? & ? & ? & ? & [] & _).
  - destruct (IH c) as [Y|N].
    + left. destruct Y as (p' & q' & l & e & I & R). exists p', q', l, e. split; [simpl; auto|auto].
    + destruct (traverse_ends p q _ (le_n _)) as ([l e] & T).
      destruct (in_dec cell_dec c l) as [I|I].
      * left. exists p, q, l, e. simpl. auto.
      * right. intros (p' & q' & l' & e' & [J|J] & T' & I').
        -- injection J as <- <-. rewrite T in T'. injection T' as <- <-. auto.
        -- apply N. exists p', q', l', e'. auto.
Qed.

(** ** The outline and the cells visited *)
Lemma visits_outline poly c : off_lines poly -> visits poly c ->
  exists v, on_outline poly v /\ in_cell c v.
Proof.
  intros O (p & q & l & e & I & T & J).
  assert (P : off p) by exact (O p (proj1 (edges_in _ _ _ I))).
  destruct (traverse_passes p q _ l e (off_clear p q P) T) as (A & _ & _).
  destruct (passes_touch _ _ _ A c) as (u & U & K); [apply in_or_app; auto|].
  exists (along p q u). split; auto. exists (p, q), u. rewrite <- edges_sides. simpl.
  split; [auto|]. split; [auto|]. split; reflexivity.
Qed.

Lemma stay poly c p q : off_lines poly -> ~ visits poly c -> In (p, q) (edges poly) ->
  in_cell c p -> in_cell c q.
Proof.
  intros O N I C. destruct (edges_in _ _ _ I) as [IP IQ].
  pose proof (O p IP) as P. change (off p) in P.
  destruct (traverse_ends p q _ (le_n _)) as ([l e] & T).
  destruct (traverse_passes p q _ l e (off_clear p q P) T) as (A & _ & H).
  pose proof (off_cell c p P C) as E.
  destruct l as [|x l].
  - simpl in H. injection H as H. pose proof (passes_end _ _ [] e A) as Z.
    apply (in_cell_eq _ (along p q 1)); [simpl; ring|simpl; ring|]. congruence.
  - exfalso. apply N. exists p, q, (x :: l), e. split; [auto|]. split; [auto|].
    simpl in H. injection H as H. rewrite E. simpl. auto.
Qed.

Lemma outline_visited poly v : off_lines poly -> ~ within_a_cell poly -> on_outline poly v ->
  exists c, visits poly c /\ in_cell c v.
Proof.
  intros O NW ([p q] & u & I & U & X & Y). rewrite <- edges_sides in I. simpl in X, Y.
  destruct (edges_in _ _ _ I) as [IP IQ].
  pose proof (O p IP) as P. change (off p) in P. pose proof (O q IQ) as Q. change (off q) in Q.
  destruct (traverse_ends p q _ (le_n _)) as ([l e] & T).
  destruct (traverse_passes p q _ l e (off_clear p q P) T) as (A & _ & _).
  destruct (passes_cover _ _ _ A u U) as (c & J & K).
  assert (KV : in_cell c v) by (apply (in_cell_eq _ (along p q u)); simpl; auto; lra).
  apply in_app_or in J. destruct J as [J|[<-|[]]].
  - exists c. split; auto. exists p, q, l, e. auto.
  - exists e. split; auto.
    destruct (visited_in_dec (edges poly) e) as [Y'|N]; [exact Y'|]. exfalso. apply NW. exists e.
    apply (round (in_cell e) poly) with q; auto.
    + intros a b IB CA. eapply stay; eauto.
    + apply (in_cell_eq _ (along p q 1)); [simpl; ring|simpl; ring|]. eapply passes_end; eauto.
Qed.

Lemma within_unvisited poly c : off_lines poly -> within_a_cell poly -> ~ visits poly c.
Proof.
  intros O (k & K) (p & q & l & e & I & T & J). destruct (edges_in _ _ _ I) as [IP IQ].
  pose proof (O p IP) as P. change (off p) in P. pose proof (O q IQ) as Q. change (off q) in Q.
  destruct (traverse_passes p q _ l e (off_clear p q P) T) as (_ & _ & H).
  destruct l as [|x l]; [contradiction|]. simpl in H. injection H as H.
  apply (traverse_left p q _ _ _ (off_clear p q P) T x); [simpl; auto|].
  rewrite H, <- (off_cell k p P (K p IP)). apply off_inside; auto.
Qed.

(** ** The inside of a polygon *)
Lemma crossing a b p : ~ (snd a == snd b)%Q -> 
  (snd a <= snd p <= snd b \/ snd b <= snd p <= snd a)%Q ->
  exists u, (0 <= u <= 1)%Q /\ (snd p == snd (along a b u))%Q /\
    ((snd b - snd a) * (fst (along a b u) - fst p) == side a b p)%Q.
Proof.
  intros N H. exists ((snd p - snd a) / (snd b - snd a))%Q.
  assert (E : ((snd p - snd a) / (snd b - snd a) * (snd b - snd a) == snd p - snd a)%Q) by (field; lra).
  set (u := ((snd p - snd a) / (snd b - snd a))%Q) in *. clearbody u.
  split; [|split].
  - destruct H as [H|H]; nra.
  - simpl. lra.
  - unfold side. simpl. 
    setoid_replace ((snd b - snd a) * (fst a + u * (fst b - fst a) - fst p))%Q
      with (u * (snd b - snd a) * (fst b - fst a) + (snd b - snd a) * (fst a - fst p))%Q by ring.
    rewrite E. ring.
Qed.

Lemma rising poly y : (exists v, In v poly /\ snd v <= y)%Q -> (exists v, In v poly /\ y < snd v)%Q ->
  exists a b, In (a, b) (edges poly) /\ (snd a <= y)%Q /\ (y < snd b)%Q.
Proof.
  intros (v & V & L) (w & W & G).
  assert (D : (exists s, In s (edges poly) /\ (if Qle_bool (snd (fst s)) y then negb (Qle_bool (snd (snd s)) y) else false) = true) \/
              (forall s, In s (edges poly) -> (if Qle_bool (snd (fst s)) y then negb (Qle_bool (snd (snd s)) y) else false) = false)).
  { induction (edges poly) as [|s es IH]; [right; intros ? []|].
    destruct (if Qle_bool (snd (fst s)) y then negb (Qle_bool (snd (snd s)) y) else false) eqn:E.
    - left. exists s. simpl. auto.
    - destruct IH as [(x & I & X)|H]; [left; exists x; simpl; auto|].
      right. intros x [<-|I]; auto. }
  destruct D as [([a b] & I & E)|H].
  - simpl in E. destruct (Qle_bool (snd a) y) eqn:A; [|discriminate]. apply qle_spec in A.
    apply negb_true_iff, qle_false in E. exists a, b. auto.
  - exfalso. assert (snd w <= y)%Q; [|lra].
    apply (round (fun v => snd v <= y)%Q poly) with v; auto.
    intros a b I A. specialize (H _ I). simpl in H. apply qle_spec in A. rewrite A in H.
    apply negb_false_iff, qle_spec in H. exact H.
Qed.

Lemma falling poly y : (exists v, In v poly /\ snd v <= y)%Q -> (exists v, In v poly /\ y < snd v)%Q ->
  exists a b, In (a, b) (edges poly) /\ (y < snd a)%Q /\ (snd b <= y)%Q.
Proof.
  intros (w & W & G) (v & V & L).
  assert (D : (exists s, In s (edges poly) /\ (if Qle_bool (snd (fst s)) y then false else Qle_bool (snd (snd s)) y) = true) \/
              (forall s, In s (edges poly) -> (if Qle_bool (snd (fst s)) y then false else Qle_bool (snd (snd s)) y) = false)).
  { induction (edges poly) as [|s es IH]; [right; intros ? []|].
    destruct (if Qle_bool (snd (fst s)) y then false else Qle_bool (snd (snd s)) y) eqn:E.
    - left. exists s. simpl. auto.
    - destruct IH as [(x & I & X)|H]; [left; exists x; simpl; auto|].
      right. intros x [<-|I]; auto. }
  destruct D as [([a b] & I & E)|H].
  - simpl in E. destruct (Qle_bool (snd a) y) eqn:A; [discriminate|]. apply qle_false in A.
    apply qle_spec in E. exists a, b. auto.
  - exfalso. assert (y < snd w)%Q; [|lra].
    apply (round (fun v => y < snd v)%Q poly) with v; auto.
    intros a b I A. specialize (H _ I). simpl in H. apply qle_false in A. rewrite A in H.
    apply qle_false in H. exact H.
Qed.

(** To the left and to the right of a point inside there are points of the outline. *)
Lemma flanked poly p : inside poly p ->
  exists a b, on_outline poly a /\ on_outline poly b /\ (snd a == snd p)%Q /\ (snd b == snd p)%Q /\
    (fst a <= fst p)%Q /\ (fst p <= fst b)%Q.
Proof.
  intros (S & (lo & LI & LO) & (hi & HI & HO)).
  destruct (rising poly (snd p)) as (a1 & b1 & I1 & A1 & B1); [exists lo; split; auto; lra|eauto|].
  destruct (falling poly (snd p)) as (a2 & b2 & I2 & A2 & B2); [exists lo; split; auto; lra|eauto|].
  destruct (crossing a1 b1 p) as (u1 & U1 & Y1 & X1); [lra|left; lra|].
  destruct (crossing a2 b2 p) as (u2 & U2 & Y2 & X2); [lra|right; lra|].
  assert (O1 : on_outline poly (along a1 b1 u1)).
  { exists (a1, b1), u1. rewrite <- edges_sides. repeat split; auto; try reflexivity; apply U1. }
  assert (O2 : on_outline poly (along a2 b2 u2)).
  { exists (a2, b2), u2. rewrite <- edges_sides. repeat split; auto; try reflexivity; apply U2. }
  destruct S as [S|S]; pose proof (S _ I1) as S1; pose proof (S _ I2) as S2; cbn [fst snd] in S1, S2.
  - exists (along a1 b1 u1), (along a2 b2 u2). repeat split; auto; try lra; nra.
  - exists (along a2 b2 u2), (along a1 b1 u1). repeat split; auto; try lra; nra.
Qed.

Lemma inside_between poly p (r c : nat) : off_lines poly -> ~ within_a_cell poly -> inside poly p ->
  inside_cell (Z.of_nat c, Z.of_nat r) p -> between poly r c.
Proof.
  intros O NW I ((X1 & X2) & (Y1 & Y2)). cbn [fst snd] in *.
  destruct (flanked poly p I) as (a & b & OA & OB & YA & YB & LA & LB).
  destruct (outline_visited poly a O NW OA) as ([c1 r1] & V1 & ((A1 & A2) & (A3 & A4))).
  destruct (outline_visited poly b O NW OB) as ([c2 r2] & V2 & ((B1 & B2) & (B3 & B4))).
  cbn [fst snd] in *.
  assert (r1 = Z.of_nat r).
  { assert (r1 < Z.of_nat r + 1) by (apply inj_lt; lra). assert (Z.of_nat r < r1 + 1) by (apply inj_lt; lra). lia. }
  assert (r2 = Z.of_nat r).
  { assert (r2 < Z.of_nat r + 1) by (apply inj_lt; lra). assert (Z.of_nat r < r2 + 1) by (apply inj_lt; lra). lia. }
  subst r1 r2. exists c1, c2. split; [auto|]. split; [auto|].
  assert (c1 < Z.of_nat c + 1) by (apply inj_lt; lra).
  assert (Z.of_nat c < c2 + 1) by (apply inj_lt; lra). lia.
Qed.
