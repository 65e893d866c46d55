From Coq Require Import Reals List Ascii String Bool PeanoNat Lia.
From Verif Require Import M_LidarNoise S_LidarNoise.
Import ListNotations.

(** ** Wildcards *)
Lemma atom_star : atom "*" = Some Many. Proof. reflexivity. Qed.
Lemma atom_question : atom "?" = Some Any. Proof. reflexivity. Qed.
Lemma within_special : forall c, ~ within c meaningful -> special c = false /\ Ascii.eqb c "." = false.
Proof.
  intros c H. unfold special. cbn [existsb]. unfold meaningful in H. cbn [within] in H.
  assert (E : forall d, c <> d -> Ascii.eqb c d = false) by (intros d; apply Ascii.eqb_neq).
  rewrite !E by (intro X; apply H; subst; tauto). split; reflexivity.
Qed.
Lemma plain_tail : forall c p, plain (String c p) -> plain p.
Proof. intros c p H d W. apply H. right. exact W. Qed.
Lemma plain_head : forall c p, plain (String c p) -> ~ within c meaningful.
Proof. intros c p H. apply H. left. reflexivity. Qed.
Lemma one_line_tail : forall c s, one_line (String c s) -> one_line s /\ no_newline c = true.
Proof.
  intros c s [A B]. cbn [within] in A, B. split.
  - split; tauto.
  - unfold no_newline. rewrite andb_true_iff, !negb_true_iff. split; apply Ascii.eqb_neq; intro; subst; tauto.
Qed.

Lemma regex_plain : forall p, plain p ->
  exists r, regex p = Some r /\ forall s, one_line s -> (accepts r s = true <-> fits p s).
Proof.
  induction p as [|c p IH]; intros H.
  - exists []. split; [reflexivity|]. intros [|d s] L; cbn; split; intro X; try discriminate; try constructor.
    inversion X.
  - destruct (IH (plain_tail _ _ H)) as [r [R A]]. cbn [regex]. rewrite R.
    destruct (Ascii.eqb_spec c "*") as [->|NS].
    { exists (Many :: r). split; [reflexivity|]. intro s.
      induction s as [|d s IHs]; intro L.
      - cbn [accepts]. rewrite orb_false_r, (A _ L). split; intro X; [constructor; exact X|].
        inversion X; subst; congruence || assumption.
      - destruct (one_line_tail _ _ L) as [L' N]. specialize (IHs L').
        change (accepts (Many :: r) (String d s)) with
          (accepts r (String d s) || (no_newline d && accepts (Many :: r) s)).
        rewrite N. cbn [andb]. rewrite orb_true_iff, IHs, (A _ L).
        split.
        + intros [X|X]; [apply fits_none | apply fits_more]; exact X.
        + intro X. inversion X; subst; [left | right |]; congruence || assumption. }
    destruct (Ascii.eqb_spec c "?") as [->|NQ].
    { exists (Any :: r). split; [reflexivity|]. intros [|d s] L; cbn [accepts].
      - split; intro X; [discriminate | inversion X].
      - destruct (one_line_tail _ _ L) as [L' N]. rewrite N. cbn [andb]. rewrite (A _ L').
        split; intro X; [constructor; exact X|]. inversion X; subst; congruence || assumption. }
    destruct (within_special c (plain_head _ _ H)) as [S D].
    unfold atom. apply Ascii.eqb_neq in NS as NS'. apply Ascii.eqb_neq in NQ as NQ'. rewrite NS', NQ', D, S.
    exists (Just c :: r). split; [reflexivity|]. intros [|d s] L; cbn [accepts].
    + split; intro X; [discriminate | inversion X; congruence].
    + destruct (one_line_tail _ _ L) as [L' N]. rewrite andb_true_iff, (A _ L'), Ascii.eqb_eq.
      split; [intros [<- X]; constructor; assumption|].
      intro X. inversion X; subst; try congruence. split; [reflexivity | assumption].
Qed.

Lemma regex_match_plain : forall text p, plain p -> one_line text ->
  exists b, regex_match text p = Some b /\ (b = true <-> fits p text).
Proof.
  intros text p H L. destruct (regex_plain p H) as [r [R A]]. unfold regex_match. rewrite R.
  exists (accepts r text). split; [reflexivity | apply A, L].
Qed.
Lemma any_of_plain : forall text l, (forall p, In p l -> plain p) -> one_line text ->
  exists b, any_of (regex_match text) l = Some b /\ (b = true <-> some_fits l text).
Proof.
  intros text l. induction l as [|p l IH]; intros H L.
  - exists false. split; [reflexivity|]. split; [discriminate|]. intros [q [[] _]].
  - destruct (regex_match_plain text p (H p (or_introl eq_refl)) L) as [b [E B]].
    cbn [any_of]. rewrite E. destruct b.
    + exists true. split; [reflexivity|]. split; [|reflexivity]. intros _. exists p.
      split; [left; reflexivity | apply B; reflexivity].
    + destruct (IH (fun q I => H q (or_intror I)) L) as [b [E' B']]. exists b. split; [exact E'|].
      rewrite B'. split.
      * intros [q [I F]]. exists q. split; [right; exact I | exact F].
      * intros [q [[<-|I] F]]; [apply B in F; discriminate|]. exists q. split; assumption.
Qed.

Lemma app_assoc_s : forall a b c : string, ((a ++ b) ++ c)%string = (a ++ (b ++ c))%string.
Proof. induction a as [|x a IH]; intros; cbn; [reflexivity | rewrite IH; reflexivity]. Qed.

Lemma applies_meant : forall P t v n e, readable P e ->
  exists b, applies P (base_path t v) e n = Some b /\ (b = true <-> meant P t v n e).
Proof.
  intros P t v n e [H [L1 [L2 L3]]]. unfold applies, meant, base_path. rewrite !app_assoc_s.
  destruct (any_of_plain (entity_type e) _ (H (t ++ ".noise." ++ v ++ "." ++ n ++ ".noise_application_entities." ++ "types")%string) L1) as [b1 [E1 B1]].
  destruct (any_of_plain (entity_subtype e) _ (H (t ++ ".noise." ++ v ++ "." ++ n ++ ".noise_application_entities." ++ "subtypes")%string) L2) as [b2 [E2 B2]].
  destruct (any_of_plain (entity_name e) _ (H (t ++ ".noise." ++ v ++ "." ++ n ++ ".noise_application_entities." ++ "names")%string) L3) as [b3 [E3 B3]].
  rewrite E1, E2, E3. exists (b1 && (b2 && b3)). split.
  - destruct b1, b2, b3; reflexivity.
  - rewrite !andb_true_iff, B1, B2, B3. reflexivity.
Qed.

(** ** Names of parameters *)
Lemma after_spec : forall b s r, after b s = Some r <-> s = (b ++ r)%string.
Proof.
  induction b as [|c b IH]; intros s r; cbn.
  - split; intro X; [injection X as ->; reflexivity | subst; reflexivity].
  - destruct s as [|d s].
    + split; discriminate.
    + destruct (Ascii.eqb_spec c d) as [->|N].
      * rewrite IH. split; [intros ->; reflexivity | intro X; injection X as ->; reflexivity].
      * split; [discriminate | intro X; injection X as -> _; congruence].
Qed.
Lemma up_to_dot_spec : forall s n, up_to_dot s = Some n <-> ~ within "." n /\ exists r, s = (n ++ "." ++ r)%string.
Proof.
  induction s as [|c s IH]; intros n.
  - cbn. split; [discriminate|]. intros [_ [r X]]. destruct n; discriminate.
  - cbn [up_to_dot]. destruct (Ascii.eqb_spec c ".") as [->|N].
    + split.
      * intro X. injection X as <-. split; [intros []|]. exists s. reflexivity.
      * intros [W [r X]]. destruct n as [|d n]; [reflexivity|]. exfalso. injection X as X1 _. apply W. left. exact X1.
    + destruct (up_to_dot s) as [t|] eqn:E.
      * destruct (proj1 (IH t) eq_refl) as [W [r ->]]. split.
        -- intro X. injection X as <-. split; [intros [X|X]; [congruence | exact (W X)]|]. exists r. reflexivity.
        -- intros [W' [r' X]]. destruct n as [|d n]; [injection X as X _; congruence|].
           injection X as -> X. assert (K : Some t = Some n) by (apply IH; split; [intro Y; apply W'; right; exact Y | exists r'; exact X]).
           injection K as ->. reflexivity.
      * split; [discriminate|]. intros [W' [r' X]]. destruct n as [|d n]; [injection X as X _; congruence|].
        injection X as -> X. assert (K : None = Some n) by (apply IH; split; [intro Y; apply W'; right; exact Y | exists r'; exact X]).
        discriminate.
Qed.

Lemma config_name_spec : forall p b n, n <> EmptyString ->
  (config_name p b = n <-> ~ within "." n /\ exists r, p = (b ++ n ++ "." ++ r)%string).
Proof.
  intros p b n N. unfold config_name. destruct (after b p) as [rest|] eqn:A.
  - apply after_spec in A as ->. destruct (up_to_dot rest) as [m|] eqn:U.
    + apply up_to_dot_spec in U as [W [r ->]]. split.
      * intros <-. split; [exact W|]. exists r. reflexivity.
      * intros [W' [r' X]].
        assert (Y : Some (m ++ "." ++ r)%string = Some (n ++ "." ++ r')%string).
        { rewrite <- (proj2 (after_spec b (b ++ m ++ "." ++ r) _) eq_refl). rewrite X. apply after_spec. reflexivity. }
        injection Y as Y.
        assert (K : Some m = Some n).
        { rewrite <- (proj2 (up_to_dot_spec (m ++ "." ++ r) m) (conj W (ex_intro _ r eq_refl))).
          replace (m ++ "." ++ r)%string with (n ++ "." ++ r')%string by (symmetry; exact Y).
          apply up_to_dot_spec. split; [exact W'|]. exists r'. reflexivity. }
        injection K as ->. reflexivity.
    + split; [congruence|]. intros [W' [r' X]].
      assert (Y : Some rest = Some (n ++ "." ++ r')%string).
      { rewrite <- (proj2 (after_spec b (b ++ rest) _) eq_refl). rewrite X. apply after_spec. reflexivity. }
      injection Y as Y. subst rest. rewrite (proj2 (up_to_dot_spec _ n)) in U; [discriminate|]. split; [exact W'|]. exists r'. reflexivity.
  - split; [congruence|]. intros [_ [r X]]. rewrite (proj2 (after_spec b p _) X) in A. discriminate.
Qed.

Lemma there_spec : forall P t v n, n <> EmptyString ->
  (there P t v n <-> exists p, In p (listed P) /\ config_name p (base_path t v) = n).
Proof.
  intros P t v n N. unfold there. split.
  - intros [_ [W [r I]]]. eexists. split; [exact I|]. apply config_name_spec; [exact N|].
    split; [exact W|]. exists r. unfold base_path. rewrite !app_assoc_s. reflexivity.
  - intros [p [I C]]. apply config_name_spec in C as [W [r ->]]; [|exact N].
    split; [exact N|]. split; [exact W|]. exists r. unfold base_path in I. rewrite !app_assoc_s in I. exact I.
Qed.
Lemma available_spec : forall P t v n, In n (available P t v) <-> there P t v n.
Proof.
  intros P t v n. unfold available. rewrite nodup_In, filter_In, in_map_iff.
  destruct n as [|c n].
  - cbn. split; [intros [_ X]; discriminate | intros [X _]; congruence].
  - rewrite there_spec by discriminate. cbn. split.
    + intros [[p [C I]] _]. exists p. split; assumption.
    + intros [p [I C]]. split; [exists p; split; assumption | reflexivity].
Qed.

(** ** Points *)
Lemma length_set_nth : forall A i (a : A) l, List.length (set_nth i a l) = List.length l.
Proof. induction i; intros a [|b l]; cbn; congruence || (rewrite IHi; reflexivity). Qed.
Lemma nth_set_same : forall A i (a : A) l, (i < List.length l)%nat -> nth_error (set_nth i a l) i = Some a.
Proof. induction i; intros a [|b l] H; cbn in *; try lia; [reflexivity|]. apply IHi. lia. Qed.
Lemma nth_set_other : forall A i j (a : A) l, i <> j -> nth_error (set_nth i a l) j = nth_error l j.
Proof. induction i; intros [|j] a [|b l] H; cbn; try congruence; try reflexivity. apply IHi. congruence. Qed.

Definition outcome (s : State) (i : nat) : option Spot :=
  match nth_error (marks s) i with Some false => nth_error (spots s) i | _ => None end.
Lemma outcome_same : forall s s' i, nth_error (marks s') i = nth_error (marks s) i ->
  nth_error (spots s') i = nth_error (spots s) i -> outcome s' i = outcome s i.
Proof. intros s s' i A B. unfold outcome. rewrite A, B. reflexivity. Qed.

Lemma point_step : forall D b s i, List.length (marks s) = List.length (spots s) -> (i < List.length (spots s))%nat ->
  nth_error (marks s) i = Some false ->
  let s' := noise_point D b s i in
  List.length (marks s') = List.length (spots s') /\ List.length (spots s') = List.length (spots s) /\
  (forall j, i <> j -> nth_error (marks s') j = nth_error (marks s) j /\ nth_error (spots s') j = nth_error (spots s) j) /\
  (forall p, nth_error (spots s) i = Some p -> fate D b p (outcome s' i)).
Proof.
  intros D b s i L I M s'. subst s'. unfold noise_point.
  destruct (yes D (engine s) (rate b)) eqn:Y; cbn [negb].
  - destruct (nth_error (spots s) i) as [p|] eqn:N; [|apply nth_error_None in N; lia].
    cbn [marks spots]. rewrite !length_set_nth. repeat split; try assumption; try reflexivity.
    + apply nth_set_other. assumption.
    + intros q Q. injection Q as <-. right. exists (engine s), (S (engine s)), (S (S (engine s))).
      split; [exact Y|]. unfold outcome. cbn [marks spots]. rewrite M, nth_set_same by assumption. reflexivity.
  - cbn [marks spots]. rewrite !length_set_nth. repeat split; try assumption; try reflexivity.
    + apply nth_set_other. assumption.
    + intros q Q. left. split; [|exists (engine s); exact Y].
      unfold outcome. cbn [marks spots]. rewrite nth_set_same by lia. reflexivity.
Qed.

Lemma points_fold : forall D b l s, NoDup l -> List.length (marks s) = List.length (spots s) ->
  (forall i, In i l -> (i < List.length (spots s))%nat /\ nth_error (marks s) i = Some false) ->
  let s' := fold_left (noise_point D b) l s in
  List.length (marks s') = List.length (spots s') /\ List.length (spots s') = List.length (spots s) /\
  (forall j, ~ In j l -> nth_error (marks s') j = nth_error (marks s) j /\ nth_error (spots s') j = nth_error (spots s) j) /\
  (forall i p, In i l -> nth_error (spots s) i = Some p -> fate D b p (outcome s' i)).
Proof.
  intros D b l. induction l as [|i l IH]; intros s N L H s'; subst s'; cbn [fold_left].
  - repeat split; try assumption; try reflexivity. intros i p [].
  - destruct (H i (or_introl eq_refl)) as [I M]. inversion N as [|x y NI N']; subst.
    destruct (point_step D b s i L I M) as [L1 [L2 [O F]]].
    set (s1 := noise_point D b s i) in *.
    destruct (IH s1 N' L1) as [L3 [L4 [O2 F2]]].
    { intros j J. assert (X : i <> j) by (intros ->; exact (NI J)). destruct (H j (or_intror J)) as [A B].
      destruct (O j X) as [C _]. rewrite C, L2. split; assumption. }
    repeat split; try assumption.
    + rewrite L4. exact L2.
    + intros. assert (X : i <> j) by (intro; subst; apply H0; left; reflexivity).
      destruct (O2 j (fun J => H0 (or_intror J))) as [A _]. rewrite A. apply (O j X).
    + intros. assert (X : i <> j) by (intro; subst; apply H0; left; reflexivity).
      destruct (O2 j (fun J => H0 (or_intror J))) as [_ A]. rewrite A. apply (O j X).
    + intros j p [->|J] P.
      * destruct (O2 j NI) as [A B]. rewrite (outcome_same s1 _ j A B). apply F, P.
      * assert (X : i <> j) by (intros ->; exact (NI J)). apply F2; [exact J|]. destruct (O j X) as [_ B]. rewrite B. exact P.
Qed.

Lemma points_of_spec : forall owners k i, In i (points_of owners k) <-> nth_error owners i = Some k.
Proof.
  intros owners k i. unfold points_of. rewrite filter_In, in_seq, Nat.eqb_eq. split.
  - intros [[_ H] <-]. apply nth_error_nth'. lia.
  - intro H. assert (I : (i < List.length owners)%nat) by (apply nth_error_Some; congruence).
    split; [lia|]. rewrite (nth_error_nth' owners 0%nat I) in H. injection H as ->. reflexivity.
Qed.

(** The configuration of an entity does not depend on those of others. *)
Lemma config_for_other : forall P m e r m' e', config_for P m e = Some (r, m') -> entity_name e <> entity_name e' ->
  forall r', (exists m1, config_for P m' e' = Some (r', m1)) <-> (exists m1, config_for P m e' = Some (r', m1)).
Proof.
  intros P m e r m' e' C N r'. unfold config_for in C.
  assert (E : topic m' = topic m /\ configs m' = configs m /\ assoc (entity_name e') (known m') = assoc (entity_name e') (known m)).
  { apply String.eqb_neq in N.
    destruct (assoc (entity_name e) (known m)); [injection C as _ <-; repeat split; reflexivity|].
    destruct (find_matching P e "v1" (topic m)) as [n|]; [|discriminate].
    destruct (empty n); [injection C as _ <-|destruct (assoc n (configs m)); [injection C as _ <-|discriminate]];
      cbn [topic configs known assoc]; rewrite N; repeat split; reflexivity. }
  destruct E as [E1 [E2 E3]]. unfold config_for. rewrite E1, E2, E3.
  destruct (assoc (entity_name e') (known m)).
  - split; intros [m1 X]; injection X as <- _; eexists; reflexivity.
  - destruct (find_matching P e' "v1" (topic m)) as [n|]; [|reflexivity].
    destruct (empty n).
    + split; intros [m1 X]; injection X as <- _; eexists; reflexivity.
    + destruct (assoc n (configs m)); [|reflexivity].
      split; intros [m1 X]; injection X as <- _; eexists; reflexivity.
Qed.

Definition treated (P : Parameters) (D : Draws) (ex ey : R) (m : Model) (e : Entity) (p : Spot) (f : option Spot) : Prop :=
  exists r m', config_for P m e = Some (r, m') /\
    match r with
    | None => f = Some p
    | Some c => exists b, get_bin c (entity_x e - ex) (entity_y e - ey) = Some b /\ fate D b p f
    end.

Lemma treated_other : forall P D ex ey m e r m' e' p f, config_for P m e = Some (r, m') -> entity_name e <> entity_name e' ->
  treated P D ex ey m' e' p f -> treated P D ex ey m e' p f.
Proof.
  intros P D ex ey m e r m' e' p f C N [r' [m1 [C' T]]].
  destruct (proj1 (config_for_other P m e r m' e' C N r') (ex_intro _ m1 C')) as [m2 C2].
  exists r', m2. split; assumption.
Qed.

Lemma entities_fold : forall P D ex ey owners l m s m' s',
  noise_entities P D ex ey owners (m, s) l = Some (m', s') ->
  NoDup (map fst l) -> NoDup (map (fun ke => entity_name (snd ke)) l) ->
  List.length (marks s) = List.length (spots s) -> List.length owners = List.length (spots s) ->
  (forall i k, nth_error owners i = Some k -> In k (map fst l) -> nth_error (marks s) i = Some false) ->
  List.length (marks s') = List.length (spots s') /\ List.length (spots s') = List.length (spots s) /\
  (forall i k, nth_error owners i = Some k -> ~ In k (map fst l) ->
     nth_error (marks s') i = nth_error (marks s) i /\ nth_error (spots s') i = nth_error (spots s) i) /\
  (forall i k e p, In (k, e) l -> nth_error owners i = Some k -> nth_error (spots s) i = Some p ->
     treated P D ex ey m e p (outcome s' i)).
Proof.
  intros P D ex ey owners l. induction l as [|[k e] l IH]; intros m s m' s' E N1 N2 L LO H.
  - injection E as <- <-. repeat split; try assumption; try reflexivity. intros i k e p [].
  - cbn [noise_entities] in E. destruct (noise_entity P D ex ey owners (m, s) (k, e)) as [[m1 s1]|] eqn:S; [|discriminate].
    cbn [map fst snd] in N1, N2. inversion N1 as [|x y NK N1']; inversion N2 as [|x2 y2 NN N2']; subst.
    (* one step *)
    assert (ST : List.length (marks s1) = List.length (spots s1) /\ List.length (spots s1) = List.length (spots s) /\
      (forall i k', nth_error owners i = Some k' -> k' <> k ->
         nth_error (marks s1) i = nth_error (marks s) i /\ nth_error (spots s1) i = nth_error (spots s) i) /\
      (forall i p, nth_error owners i = Some k -> nth_error (spots s) i = Some p -> treated P D ex ey m e p (outcome s1 i)) /\
      (m1 = m \/ exists r, config_for P m e = Some (r, m1))).
    { unfold noise_entity in S. pose proof (points_of_spec owners k) as PS.
      destruct (points_of owners k) as [|i0 mine] eqn:PE.
      - injection S as <- <-. repeat split; try assumption; try reflexivity.
        + intros i p O _. apply PS in O. destruct O.
        + left. reflexivity.
      - destruct (config_for P m e) as [[[c|] m2]|] eqn:C; [| |discriminate].
        + destruct (get_bin c (entity_x e - ex) (entity_y e - ey)) as [b|] eqn:B; [|discriminate].
          injection S as <- <-. rewrite <- PE in *.
          destruct (points_fold D b (points_of owners k) s) as [A1 [A2 [A3 A4]]].
          * apply NoDup_filter, seq_NoDup.
          * exact L.
          * intros i I. apply points_of_spec in I. split.
            -- rewrite <- LO. apply nth_error_Some. congruence.
            -- apply (H i k I). left. reflexivity.
          * change (fold_left (noise_point D b) mine (noise_point D b s i0))
              with (fold_left (noise_point D b) (i0 :: mine) s). rewrite <- PE.
            repeat split; try assumption.
            -- apply A3. rewrite PS. congruence.
            -- apply A3. rewrite PS. congruence.
            -- intros i p O Q. exists (Some c), m2. split; [exact C|]. exists b. split; [exact B|].
               apply A4; [apply PS; exact O | exact Q].
            -- right. exists (Some c). reflexivity.
        + injection S as <- <-. repeat split; try assumption; try reflexivity.
          * intros i p O Q. exists None, m2. split; [exact C|]. unfold outcome.
            rewrite (H i k O (or_introl eq_refl)). exact Q.
          * right. exists None. reflexivity. }
    destruct ST as [L1 [L2 [O1 [F1 MM]]]].
    destruct (IH m1 s1 m' s' E N1' N2' L1) as [L3 [L4 [O2 F2]]].
    { rewrite L2. exact LO. }
    { intros i k' O I. assert (X : k' <> k) by (intros ->; exact (NK I)).
      destruct (O1 i k' O X) as [A _]. rewrite A. apply (H i k' O). right. exact I. }
    split; [exact L3|]. split; [rewrite L4; exact L2|]. split.
    + intros i k' O I. cbn [map fst] in I. assert (X : k' <> k) by (intros ->; apply I; left; reflexivity).
      destruct (O2 i k' O (fun J => I (or_intror J))) as [A B]. destruct (O1 i k' O X) as [A' B'].
      rewrite A, B. split; assumption.
    + intros i k' e' p [I|I] O Q.
      * injection I as <- <-. destruct (O2 i k O NK) as [A B]. rewrite (outcome_same s1 s' i A B). apply F1; assumption.
      * assert (KI : In k' (map fst l)) by (apply (in_map fst) in I; exact I).
        assert (X : k' <> k) by (intros ->; exact (NK KI)).
        assert (T : treated P D ex ey m1 e' p (outcome s' i)).
        { apply (F2 i k' e' p I O). destruct (O1 i k' O X) as [_ B]. rewrite B. exact Q. }
        destruct MM as [->|[r C]]; [exact T|].
        apply (treated_other P D ex ey m e r m1 e' p _ C); [|exact T].
        intro Y. apply NN. rewrite Y. apply (in_map (fun ke => entity_name (snd ke))) in I. exact I.
Qed.

Lemma remove_marked_outcomes : forall s, List.length (marks s) = List.length (spots s) ->
  remove_marked (spots s) (marks s) = left_over (map (outcome s) (seq 0 (List.length (spots s)))).
Proof.
  intros [ps bs k]. cbn [spots marks]. revert bs.
  induction ps as [|p ps IH]; intros [|b bs] L; cbn [List.length] in L; try discriminate; [reflexivity|].
  injection L as L. specialize (IH bs L). cbn [remove_marked List.length seq map left_over].
  rewrite <- seq_shift, map_map.
  assert (E : map (fun i => outcome (state (p :: ps) (b :: bs) k) (S i)) (seq 0 (List.length ps)) =
              map (outcome (state ps bs k)) (seq 0 (List.length ps))) by (apply map_ext; reflexivity).
  rewrite E, IH. unfold outcome at 2. cbn. destruct b; reflexivity.
Qed.
