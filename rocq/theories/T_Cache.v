(** * The caches of the map: answers do not depend on the history or on other threads. *)
From Coq Require Import String List Bool Arith ZArith QArith Qfield Lia.
From Verif Require Import M_Cache S_Cache.
Import ListNotations.

(** ** C199: histories *)

Lemma center_centered : forall l, centered l (center l).
Proof.
  intros [|a [|b [|c l]]]; cbn [center]; try (apply Centered_other; cbn; lia).
  apply Centered_two; cbn; field.
Qed.

(** A table agrees with the map. *)
Record agrees {spline} (make : list point -> option spline) (m : lanelet_map) (c : caches spline) : Prop :=
  { agree_routes : forall g a b l r, c_routes c g a b l = Some r ->
      exists o, m_route m g a b l = Some o /\ r = match o with None => [] | Some r => r end;
    agree_points : forall i p, c_points c i = Some p ->
      exists l, m_centerline m i = Some l /\ p = center l /\ c_splines c i = make p;
    agree_none : forall i, c_points c i = None -> c_splines c i = None;
    agree_lengths : forall i q, c_lengths c i = Some q -> m_length m i = Some q }.

Lemma graph_eqb_true : forall a b, graph_eqb a b = true -> a = b.
Proof. intros [] []; cbn; congruence. Qed.
Lemma graph_eqb_refl : forall a, graph_eqb a a = true.
Proof. intros []; reflexivity. Qed.

Lemma empty_agrees : forall spline (make : list point -> option spline) m, agrees make m (empty spline).
Proof. intros. split; try discriminate. reflexivity. Qed.

Lemma ensure_agrees : forall spline (make : list point -> option spline) m c i ok c',
  agrees make m c -> ensure_points _ make m c i = (ok, c') ->
  agrees make m c' /\
  match m_centerline m i with
  | None => ok = false
  | Some l => c_points c' i = Some (center l) /\ c_splines c' i = make (center l) /\
              (make (center l) <> None -> ok = true)
  end.
Proof.
  intros spline make m c i ok c' A E. unfold ensure_points in E.
  destruct (c_points c i) as [p|] eqn:P.
  - injection E as <- <-. split; [exact A|]. destruct (agree_points _ _ _ A i p P) as (l & L & -> & S).
    rewrite L. split; [exact P|]. split; [exact S|]. reflexivity.
  - destruct (m_centerline m i) as [l|] eqn:L; [|injection E as <- <-; split; [exact A|reflexivity]].
    assert (agrees make m c' /\ c_points c' i = Some (center l) /\ c_splines c' i = make (center l))
      as (G & G1 & G2).
    { unfold append_points in E. pose proof (agree_none _ _ _ A i P) as N.
      destruct (make (center l)) as [s|] eqn:M; injection E as <- <-; cbn; rewrite Z.eqb_refl.
      - split; [|split; reflexivity].
        split; [exact (agree_routes _ _ _ A)| | |exact (agree_lengths _ _ _ A)]; intros i'; cbn.
        + intros p. destruct (Z.eqb_spec i' i) as [->|D].
          * intros H. injection H as <-. exists l. rewrite M. repeat split. exact L.
          * apply (agree_points _ _ _ A).
        + destruct (Z.eqb_spec i' i) as [->|D]; [discriminate|apply (agree_none _ _ _ A)].
      - split; [|split; [reflexivity|exact N]].
        split; [exact (agree_routes _ _ _ A)| | |exact (agree_lengths _ _ _ A)]; intros i'; cbn.
        + intros p. destruct (Z.eqb_spec i' i) as [->|D].
          * intros H. injection H as <-. exists l. rewrite M. repeat split; assumption.
          * apply (agree_points _ _ _ A).
        + destruct (Z.eqb_spec i' i) as [->|D]; [discriminate|apply (agree_none _ _ _ A)]. }
    split; [exact G|]. split; [exact G1|]. split; [exact G2|].
    intros N. unfold append_points in E. destruct (make (center l)); [|contradiction].
    injection E as <- _. reflexivity.
Qed.

Lemma query_agrees : forall spline (make : list point -> option spline) m c q a c',
  agrees make m c -> query _ make m c q = (a, c') ->
  agrees make m c' /\ (drawable make m q -> says make m q a).
Proof.
  intros spline make m c q a c' A E. destruct q as [g x y l|i|i|i]; cbn [query] in E.
  - unfold get_route in E. destruct (c_routes c g x y l) as [r|] eqn:R.
    + injection E as <- <-. split; [exact A|]. intros _. destruct (agree_routes _ _ _ A _ _ _ _ _ R) as (o & O & ->).
      destruct o; [apply Says_route|apply Says_no_route]; exact O.
    + destruct (m_route m g x y l) as [o|] eqn:O.
      * cbn in E. rewrite graph_eqb_refl, !Z.eqb_refl, eqb_reflx in E. cbn in E. injection E as <- <-. split.
        { split; [|exact (agree_points _ _ _ A)|exact (agree_none _ _ _ A)|exact (agree_lengths _ _ _ A)].
          intros g' x' y' l' r. cbn.
          destruct (graph_eqb g' g && Z.eqb x' x && Z.eqb y' y && Bool.eqb l' l)%bool eqn:B;
            [|apply (agree_routes _ _ _ A)].
          rewrite !andb_true_iff in B. destruct B as (((B1 & B2) & B3) & B4).
          apply graph_eqb_true in B1. apply Z.eqb_eq in B2, B3. apply eqb_prop in B4. subst.
          intros H. injection H as <-. exists o. split; [exact O|reflexivity]. }
        intros _. destruct o; [apply Says_route|apply Says_no_route]; exact O.
      * injection E as <- <-. split; [exact A|]. intros _. apply Says_unknown_route. exact O.
  - unfold get_points in E. destruct (ensure_points _ make m c i) as [ok c1] eqn:P.
    destruct (ensure_agrees _ _ _ _ _ _ _ A P) as [G H]. injection E as <- <-. split; [exact G|].
    intros D. destruct (m_centerline m i) as [l|] eqn:L.
    + destruct H as (H1 & H2 & H3). pose proof (D _ _ L (center_centered l)) as N. rewrite (H3 N), H1. cbn.
      apply (Says_points _ _ _ l); [exact L|apply center_centered].
    + subst ok. apply Says_unknown_points. exact L.
  - unfold get_spline in E. destruct (ensure_points _ make m c i) as [ok c1] eqn:P.
    destruct (ensure_agrees _ _ _ _ _ _ _ A P) as [G H]. injection E as <- <-. split; [exact G|].
    intros _. destruct (m_centerline m i) as [l|] eqn:L.
    + destruct H as (H1 & H2 & H3). rewrite H2. destruct (make (center l)) as [s|] eqn:M.
      * rewrite H3 by discriminate. apply (Says_spline _ _ _ l (center l)); [exact L|apply center_centered|exact M].
      * replace (if ok then None else None) with (@None spline) by (destruct ok; reflexivity).
        apply (Says_no_spline _ _ _ l (center l)); [exact L|apply center_centered|exact M].
    + subst ok. apply Says_unknown_spline. exact L.
  - unfold get_length in E. destruct (c_lengths c i) as [v|] eqn:R.
    + injection E as <- <-. split; [exact A|]. intros _. apply Says_length. exact (agree_lengths _ _ _ A _ _ R).
    + destruct (m_length m i) as [v|] eqn:O.
      * cbn in E. rewrite Z.eqb_refl in E. injection E as <- <-. split.
        { split; [exact (agree_routes _ _ _ A)|exact (agree_points _ _ _ A)|exact (agree_none _ _ _ A)|].
          intros i' v'. cbn. destruct (Z.eqb_spec i' i) as [->|D]; [|apply (agree_lengths _ _ _ A)].
          intros H. injection H as <-. exact O. }
        intros _. apply Says_length. exact O.
      * injection E as <- <-. split; [exact A|]. intros _. apply Says_unknown_length. exact O.
Qed.

(** The wrapper is that of the path, and its caches agree with the map of the path. *)
Definition sound {spline} (make : list point -> option spline) (load : string -> option lanelet_map)
    (path : string) (w : wrapper spline) : Prop :=
  w_path w = path /\
  match w_instance w with
  | None => True
  | Some i => path <> ""%string /\ load path = Some (i_map i) /\ agrees make (i_map i) (i_caches i)
  end.

Lemma instance_sound : forall spline (make : list point -> option spline) load path w,
  sound make load path w ->
  match instance _ load w with
  | None => path = ""%string \/ load path = None
  | Some i => path <> ""%string /\ load path = Some (i_map i) /\ agrees make (i_map i) (i_caches i)
  end.
Proof.
  intros spline make load path w [P S]. unfold instance. destruct (w_instance w) as [i|]; [exact S|].
  rewrite P. destruct (String.eqb_spec path "") as [->|N]; [left; reflexivity|].
  destruct (load path) as [m|]; [|right; reflexivity]. split; [exact N|]. split; [reflexivity|].
  apply empty_agrees.
Qed.

Lemma calls_sound : forall spline (make : list point -> option spline) load h,
  sound make load (last_path h) (calls _ make load h).
Proof.
  intros spline make load h. unfold last_path, calls.
  assert (forall h p w, sound make load p w ->
    sound make load (fold_left (fun p c => match c with Activate q => q | Ask _ => p end) h p)
      (fold_left (call_once spline make load) h w)) as G.
  { clear h. induction h as [|c h IH]; intros p w S; [exact S|]. cbn [fold_left]. apply IH.
    destruct c as [q|q]; cbn [call_once]; [split; [reflexivity|exact I]|].
    unfold ask. pose proof (instance_sound _ _ _ _ _ S) as J.
    destruct (instance _ load w) as [i|]; [|exact S]. destruct J as (N & L & A).
    destruct (query _ make (i_map i) (i_caches i) q) as [a c] eqn:E. cbn.
    split; [exact (proj1 S)|]. cbn. split; [exact N|]. split; [exact L|].
    exact (proj1 (query_agrees _ _ _ _ _ _ _ A E)). }
  apply G. split; [reflexivity|exact I].
Qed.

(** After any calls, a question is answered with what the map activated last says, whatever was asked or
    activated before. (For points, if they make a spline.) *)
Theorem C199_answers : forall spline (make : list point -> option spline) load h m q,
  last_path h <> ""%string -> load (last_path h) = Some m -> drawable make m q ->
  says make m q (fst (ask _ make load (calls _ make load h) q)).
Proof.
  intros spline make load h m q N L D. pose proof (instance_sound _ _ _ _ _ (calls_sound _ make load h)) as J.
  unfold ask. destruct (instance _ load (calls _ make load h)) as [i|].
  - destruct J as (_ & L' & A). rewrite L in L'. injection L' as L'.
    destruct (query _ make (i_map i) (i_caches i) q) as [a c] eqn:E. cbn. subst m.
    exact (proj2 (query_agrees _ _ _ _ _ _ _ A E) D).
  - destruct J as [J|J]; [contradiction|congruence].
Qed.

(** Without a map, every question throws, as often as it is asked. *)
Theorem C199_unloaded : forall spline (make : list point -> option spline) load h q,
  last_path h = ""%string \/ load (last_path h) = None ->
  fst (ask _ make load (calls _ make load h) q) = Threw.
Proof.
  intros spline make load h q U. pose proof (instance_sound _ _ _ _ _ (calls_sound _ make load h)) as J.
  unfold ask. destruct (instance _ load (calls _ make load h)) as [i|]; [|reflexivity].
  destruct J as (N & L & _). destruct U as [U|U]; congruence.
Qed.

(** A question that was answered is answered in the same way whatever is asked in between. *)
Theorem C199_repeated : forall spline (make : list point -> option spline) load h between q a,
  (forall c, In c between -> exists q', c = Ask q') ->
  fst (ask _ make load (calls _ make load h) q) = a -> a <> Threw ->
  fst (ask _ make load (calls _ make load (h ++ Ask q :: between)) q) = a.
Proof.
  intros spline make load h between q a B E N.
  (* Once answered, the entry is in the table and is not changed. *)
  assert (forall w q a, fst (ask _ make load w q) = a -> a <> Threw ->
    exists i, w_instance (snd (ask _ make load w q)) = Some i /\
    match q, a with
    | AskRoute g x y l, Ids r => c_routes (i_caches i) g x y l = Some r
    | AskPoints j, Points p => c_points (i_caches i) j = Some p
    | AskSpline j, Curve s => (exists p, c_points (i_caches i) j = Some p) /\ c_splines (i_caches i) j = Some s
    | AskLength j, Length v => c_lengths (i_caches i) j = Some v
    | _, _ => False
    end) as First.
  { clear. intros w q a E N. unfold ask in *. destruct (instance _ load w) as [i|]; [|contradiction N; symmetry; exact E].
    destruct q as [g x y l|j|j|j]; cbn [query] in *.
    - unfold get_route in *. destruct (c_routes (i_caches i) g x y l) as [r|] eqn:R; cbn in *.
      + subst a. eexists. split; [reflexivity|]. exact R.
      + destruct (m_route (i_map i) g x y l) as [o|]; cbn in *; [|congruence].
        rewrite graph_eqb_refl, !Z.eqb_refl, eqb_reflx in *. cbn in *. subst a. eexists.
        split; [reflexivity|]. cbn. rewrite graph_eqb_refl, !Z.eqb_refl, eqb_reflx. reflexivity.
    - unfold get_points in *. destruct (ensure_points _ make (i_map i) (i_caches i) j) as [ok c]. cbn in *.
      destruct ok; cbn in *; [|congruence]. destruct (c_points c j) as [p|] eqn:P; cbn in *; [|congruence].
      subst a. eexists. split; [reflexivity|]. exact P.
    - unfold get_spline in *. unfold ensure_points, append_points in *.
      destruct (c_points (i_caches i) j) as [p|] eqn:P.
      + cbn in *. destruct (c_splines (i_caches i) j) as [s|] eqn:S; cbn in *; [|congruence]. subst a.
        eexists. split; [reflexivity|]. cbn. split; [exists p; exact P|exact S].
      + destruct (m_centerline (i_map i) j) as [l|]; cbn in *; [|congruence].
        destruct (make (center l)) as [s|]; cbn in *; [|congruence]. rewrite Z.eqb_refl in E. cbn in E. subst a.
        eexists. split; [reflexivity|]. cbn. rewrite Z.eqb_refl. split; [eexists; reflexivity|reflexivity].
    - unfold get_length in *. destruct (c_lengths (i_caches i) j) as [v|] eqn:R; cbn in *.
      + subst a. eexists. split; [reflexivity|]. exact R.
      + destruct (m_length (i_map i) j) as [v|]; cbn in *; [|congruence].
        rewrite Z.eqb_refl in *. cbn in *. subst a. eexists. split; [reflexivity|]. cbn.
        rewrite Z.eqb_refl. reflexivity. }
  set (kept := fun (i : loaded spline) => match q, a with
    | AskRoute g x y l, Ids r => c_routes (i_caches i) g x y l = Some r
    | AskPoints j, Points p => c_points (i_caches i) j = Some p
    | AskSpline j, Curve s => (exists p, c_points (i_caches i) j = Some p) /\ c_splines (i_caches i) j = Some s
    | AskLength j, Length v => c_lengths (i_caches i) j = Some v
    | _, _ => False
    end).
  assert (forall w i q', w_instance w = Some i -> kept i ->
    exists i', w_instance (snd (ask _ make load w q')) = Some i' /\ kept i') as Next.
  { clear -a. intros w i q' W K. unfold ask, instance. rewrite W.
    destruct (query _ make (i_map i) (i_caches i) q') as [b c] eqn:Q. cbn. eexists. split; [reflexivity|].
    assert (forall p, c_points (i_caches i) p <> None -> c_points c p = c_points (i_caches i) p /\
            c_splines c p = c_splines (i_caches i) p) as Pts.
    { assert (forall ok c2 j, ensure_points _ make (i_map i) (i_caches i) j = (ok, c2) ->
        forall p, c_points (i_caches i) p <> None -> c_points c2 p = c_points (i_caches i) p /\
            c_splines c2 p = c_splines (i_caches i) p) as En.
      { clear. intros ok c2 j E p H. unfold ensure_points, append_points in E.
        destruct (c_points (i_caches i) j) eqn:P; [injection E as <- <-; split; reflexivity|].
        destruct (m_centerline (i_map i) j); [|injection E as <- <-; split; reflexivity].
        destruct (make _); injection E as <- <-; cbn; destruct (Z.eqb_spec p j) as [->|D];
          try contradiction; split; reflexivity. }
      destruct q' as [g x y l|j|j|j]; cbn [query] in Q.
      - unfold get_route in Q. destruct (c_routes _ g x y l); [injection Q as <- <-; intros; split; reflexivity|].
        destruct (m_route _ _ _ _ _); injection Q as <- <-; intros; split; reflexivity.
      - unfold get_points in Q. destruct (ensure_points _ make (i_map i) (i_caches i) j) as [ok c2] eqn:P.
        injection Q as <- <-. exact (En _ _ _ P).
      - unfold get_spline in Q. destruct (ensure_points _ make (i_map i) (i_caches i) j) as [ok c2] eqn:P.
        injection Q as <- <-. exact (En _ _ _ P).
      - unfold get_length in Q. destruct (c_lengths _ j); [injection Q as <- <-; intros; split; reflexivity|].
        destruct (m_length _ _); injection Q as <- <-; intros; split; reflexivity. }
    assert (forall g x y l r, c_routes (i_caches i) g x y l = Some r -> c_routes c g x y l = Some r) as Rts.
    { intros g x y l r R. destruct q' as [g' x' y' l'|j|j|j]; cbn [query] in Q.
      - unfold get_route in Q. destruct (c_routes _ g' x' y' l') eqn:R'; [injection Q as <- <-; exact R|].
        destruct (m_route _ _ _ _ _); injection Q as <- <-; [|exact R]. cbn.
        destruct (graph_eqb g g' && Z.eqb x x' && Z.eqb y y' && Bool.eqb l l')%bool eqn:B; [|exact R].
        rewrite !andb_true_iff in B. destruct B as (((B1 & B2) & B3) & B4).
        apply graph_eqb_true in B1. apply Z.eqb_eq in B2, B3. apply eqb_prop in B4. subst. congruence.
      - unfold get_points, ensure_points, append_points in Q. destruct (c_points _ j); [injection Q as <- <-; exact R|].
        destruct (m_centerline _ _); [|injection Q as <- <-; exact R].
        destruct (make _); injection Q as <- <-; exact R.
      - unfold get_spline, ensure_points, append_points in Q. destruct (c_points _ j); [injection Q as <- <-; exact R|].
        destruct (m_centerline _ _); [|injection Q as <- <-; exact R].
        destruct (make _); injection Q as <- <-; exact R.
      - unfold get_length in Q. destruct (c_lengths _ j); [injection Q as <- <-; exact R|].
        destruct (m_length _ _); injection Q as <- <-; exact R. }
    assert (forall j v, c_lengths (i_caches i) j = Some v -> c_lengths c j = Some v) as Lns.
    { intros k v R. destruct q' as [g' x' y' l'|j|j|j]; cbn [query] in Q.
      - unfold get_route in Q. destruct (c_routes _ g' x' y' l') eqn:R'; [injection Q as <- <-; exact R|].
        destruct (m_route _ _ _ _ _); injection Q as <- <-; exact R.
      - unfold get_points, ensure_points, append_points in Q. destruct (c_points _ j); [injection Q as <- <-; exact R|].
        destruct (m_centerline _ _); [|injection Q as <- <-; exact R].
        destruct (make _); injection Q as <- <-; exact R.
      - unfold get_spline, ensure_points, append_points in Q. destruct (c_points _ j); [injection Q as <- <-; exact R|].
        destruct (m_centerline _ _); [|injection Q as <- <-; exact R].
        destruct (make _); injection Q as <- <-; exact R.
      - unfold get_length in Q. destruct (c_lengths _ j) eqn:R'; [injection Q as <- <-; exact R|].
        destruct (m_length _ _); injection Q as <- <-; [|exact R]. cbn.
        destruct (Z.eqb_spec k j) as [->|D]; [congruence|exact R]. }
    unfold kept in *. cbn [i_caches] in *. destruct q as [g x y l|j|j|j], a as [r|p|s|v|]; try contradiction.
    - exact (Rts _ _ _ _ _ K).
    - destruct (Pts j) as [P1 _]; [rewrite K; discriminate|]. rewrite P1. exact K.
    - destruct K as [[p P] S]. destruct (Pts j) as [P1 P2]; [rewrite P; discriminate|].
      split; [exists p; rewrite P1; exact P|rewrite P2; exact S].
    - exact (Lns _ _ K). }
  destruct (First _ _ _ E N) as (i & W & K). fold (kept i) in K.
  assert (calls _ make load (h ++ Ask q :: between) =
    fold_left (call_once spline make load) between (snd (ask _ make load (calls _ make load h) q))) as ->
    by (unfold calls; rewrite fold_left_app; reflexivity).
  assert (exists i', w_instance (fold_left (call_once spline make load) between
            (snd (ask _ make load (calls _ make load h) q))) = Some i' /\ kept i') as (i' & W' & K').
  { clear -B W K Next. revert B i W K.
    generalize (snd (ask _ make load (calls _ make load h) q)).
    induction between as [|c between IH]; intros w B i W K; [exists i; split; assumption|].
    cbn [fold_left]. destruct (B c (or_introl eq_refl)) as [q' ->]. cbn [call_once].
    destruct (Next w i q' W K) as (i' & W' & K').
    exact (IH _ (fun c' H => B c' (or_intror H)) i' W' K'). }
  revert W'. generalize (fold_left (call_once spline make load) between
    (snd (ask _ make load (calls _ make load h) q))). intros w W'.
  unfold ask, instance. rewrite W'. unfold kept in K'.
  destruct q as [g x y l|j|j|j], a as [r|p|s|v|]; try contradiction; cbn [query].
  - unfold get_route. rewrite K'. reflexivity.
  - unfold get_points, ensure_points. rewrite K'. cbn. rewrite K'. reflexivity.
  - destruct K' as [[p P] S]. unfold get_spline, ensure_points. rewrite P. cbn. rewrite S. reflexivity.
  - unfold get_length. rewrite K'. reflexivity.
Qed.

(** A map for examples: lanelet 1 has two points, lanelet 2 none; from 1 to 3 there is a route only with lane
    changes. *)
Definition point_at (a : Q) : point := {| x := a; y := 0; z := 0 |}.
Definition example_map (length : Q) : lanelet_map :=
  {| m_route := fun _ a b l => if Z.eqb a 1 && Z.eqb b 3 then Some (if l then Some [1; 2; 3]%Z else None) else None;
     m_centerline := fun i => if Z.eqb i 1 then Some [point_at 0; point_at 10] else if Z.eqb i 2 then Some [] else None;
     m_length := fun i => if Z.eqb i 1 then Some length else None |}.
Definition example_make (l : list point) : option nat :=
  match l with [] => None | _ => Some (List.length l) end.
Definition example_load (p : string) : option lanelet_map :=
  if String.eqb p "a" then Some (example_map 10) else if String.eqb p "b" then Some (example_map 20) else None.

(** The constructor of a spline refuses no points: the first question for the points of such a lanelet
    throws, every later one is answered. *)
Theorem C199_failed_refuted : exists spline (make : list point -> option spline) load h q a,
  fst (ask _ make load (calls _ make load h) q) = Threw /\
  fst (ask _ make load (calls _ make load (h ++ [Ask q])) q) = a /\ a <> Threw.
Proof.
  exists nat, example_make, example_load, [Activate "a"], (AskPoints 2), (Points []).
  split; [reflexivity|]. split; [reflexivity|discriminate].
Qed.

Example C199_example :
  let h := [Activate "a"; Ask (AskRoute VehicleGraph 1 3 false); Ask (AskLength 1); Activate "b";
            Ask (AskPoints 1); Ask (AskSpline 7)] in
  let answer q := fst (ask _ example_make example_load (calls _ example_make example_load h) q) in
  last_path h = "b"%string /\ answer (AskRoute VehicleGraph 1 3 true) = Ids [1; 2; 3]%Z /\
  answer (AskRoute VehicleGraph 1 3 false) = Ids [] /\ answer (AskLength 1) = Length 20 /\
  answer (AskSpline 1) = Curve 3%nat /\ answer (AskSpline 2) = Threw /\
  drawable example_make (example_map 20) (AskPoints 1) /\
  fst (ask _ example_make example_load (calls _ example_make example_load []) (AskLength 1)) = Threw.
Proof.
  cbv zeta. repeat (split; [reflexivity|]). split; [|reflexivity].
  intros l p L C. cbn in L. injection L as <-. inversion C; subst; discriminate.
Qed.

(** ** C200: threads *)

Section Threads.
Variable key value : Type.
Variable key_dec : forall a b : key, {a = b} + {a <> b}.
Variable f : key -> option value.
Variable by_reference : bool.
Variable asked : nat -> key.
Notation step := (step key value key_dec f by_reference).
Notation run := (run key value key_dec f by_reference asked).

Definition fine (t : key -> option value) (n : nat) (p : stage key value) : Prop :=
  match p with
  | Begin k => k = asked n
  | Check g k | Compute g k => g = 0%nat /\ k = asked n
  | Append g k v => g = 0%nat /\ k = asked n /\ f k = Some v
  | Fetch g k => g = 0%nat /\ k = asked n /\ t k <> None
  | Copy g k => g = 0%nat /\ k = asked n /\ t k <> None /\ by_reference = true
  | Finished k v => k = asked n /\ v = f k
  | Broken => False
  end.
Definition good (s : system key value) : Prop :=
  s_instance s = 0%nat /\ (forall k v, s_table s k = Some v -> f k = Some v) /\
  forall n, fine (s_table s) n (s_threads s n).

Lemma fine_grows : forall t t' n p, (forall k, t k <> None -> t' k <> None) -> fine t n p -> fine t' n p.
Proof.
  intros t t' n p G. destruct p; cbn; try tauto.
  - intros (A & B & C). repeat split; auto.
  - intros (A & B & C & D). repeat split; auto.
Qed.

Lemma step_good : forall s n, good s -> good (step s (Step n)).
Proof.
  intros s n (I & T & F).
  destruct (move key value key_dec f by_reference (s_instance s) (s_table s) (s_threads s n)) as [p t] eqn:E.
  assert ((forall k v, t k = Some v -> f k = Some v) /\ (forall k, s_table s k <> None -> t k <> None) /\
          fine t n p) as (T' & G & P).
  { specialize (F n). unfold move in E. rewrite I in E.
    destruct (s_threads s n) as [k|g k|g k|g k v|g k|g k|k v|]; cbn in F.
    - injection E as <- <-. split; [exact T|]. split; [auto|]. split; [reflexivity|exact F].
    - destruct F as [-> F]. cbn in E. injection E as <- <-. split; [exact T|]. split; [auto|].
      destruct (s_table s k) eqn:K; cbn; repeat split; try assumption. rewrite K. discriminate.
    - destruct F as [-> F]. injection E as <- <-. split; [exact T|]. split; [auto|].
      destruct (f k) eqn:K; cbn; repeat split; try assumption. symmetry. exact K.
    - destruct F as (-> & F & V). cbn in E. injection E as <- <-. unfold set_table.
      split; [|split].
      + intros k' v'. destruct (key_dec k' k) as [->|]; [intros H; injection H as <-; exact V|apply T].
      + intros k' H. destruct (key_dec k' k); [discriminate|exact H].
      + cbn. repeat split; [exact F|]. destruct (key_dec k k); [discriminate|contradiction].
    - destruct F as (-> & F & V). cbn in E. injection E as <- <-. split; [exact T|]. split; [auto|].
      destruct (s_table s k) as [v|] eqn:K; [|contradiction].
      destruct by_reference eqn:R; cbn; rewrite ?K; repeat split; try assumption; try discriminate.
      symmetry. apply T. exact K.
    - destruct F as (-> & F & V & R). cbn in E. injection E as <- <-. split; [exact T|]. split; [auto|].
      cbn. split; [exact F|]. destruct (s_table s k) as [v|] eqn:K; [|contradiction]. symmetry. apply T. exact K.
    - injection E as <- <-. split; [exact T|]. split; [auto|exact F].
    - contradiction. }
  unfold M_Cache.step. rewrite E. split; [exact I|]. split; [exact T'|].
  intros n'. cbn. unfold set_stage. destruct (Nat.eqb_spec n' n) as [->|D]; [exact P|].
  eapply fine_grows; [exact G|]. apply F.
Qed.

Lemma run_good : forall schedule, ~ In Replace schedule -> good (run schedule).
Proof.
  intros schedule. unfold M_Cache.run.
  assert (good (starting key value asked)) as G.
  { split; [reflexivity|]. split; [discriminate|]. intros n. reflexivity. }
  revert G. generalize (starting key value asked). induction schedule as [|e schedule IH]; intros s G N; [exact G|].
  cbn [fold_left]. apply IH; [|intros H; apply N; right; exact H].
  destruct e as [n|]; [apply step_good; exact G|]. exfalso. apply N. left. reflexivity.
Qed.

(** Any number of threads, in any interleaving of their steps: a call that has ended gave what the map says for what it
    asked, an exception only if the map has no value. *)
Theorem C200_answers : forall schedule n k v,
  ~ In Replace schedule -> s_threads (run schedule) n = Finished k v -> k = asked n /\ v = f (asked n).
Proof.
  intros schedule n k v N E. destruct (run_good schedule N) as (_ & _ & F). specialize (F n).
  rewrite E in F. cbn in F. destruct F as [-> ->]. split; reflexivity.
Qed.

(** No call touches an instance that is gone. *)
Theorem C200_safe : forall schedule n,
  ~ In Replace schedule -> s_threads (run schedule) n <> Broken.
Proof.
  intros schedule n N E. destruct (run_good schedule N) as (_ & _ & F). specialize (F n).
  rewrite E in F. exact F.
Qed.

(** Every call ends after six of its own steps at most: no thread waits for another. *)
Definition left_over (p : stage key value) : nat :=
  match p with
  | Begin _ => 6 | Check _ _ => 5 | Compute _ _ => 4 | Append _ _ _ => 3 | Fetch _ _ => 2 | Copy _ _ => 1
  | Finished _ _ | Broken => 0
  end.
Lemma move_left : forall now t p,
  (left_over (fst (move key value key_dec f by_reference now t p)) <= left_over p - 1)%nat.
Proof.
  intros now t p. destruct p as [k|g k|g k|g k v|g k|g k|k v|]; cbn; try lia;
    repeat match goal with |- context [if ?b then _ else _] => destruct b; cbn
    | |- context [match ?o with Some _ => _ | None => _ end] => destruct o; cbn end; lia.
Qed.
Theorem C200_ends : forall schedule n,
  ~ In Replace schedule -> (6 <= moves n schedule)%nat ->
  s_threads (run schedule) n = Finished (asked n) (f (asked n)).
Proof.
  intros schedule n N M.
  assert (forall schedule s, (left_over (s_threads (fold_left step schedule s) n) <=
            left_over (s_threads s n) - moves n schedule)%nat) as L.
  { clear. induction schedule as [|e schedule IH]; intros s; [cbn; lia|]. cbn [fold_left moves].
    specialize (IH (step s e)). destruct e as [n'|]; cbn [moves].
    - pose proof (move_left (s_instance s) (s_table s) (s_threads s n')) as V.
      assert (s_threads (step s (Step n')) n =
        if Nat.eqb n' n
        then fst (move key value key_dec f by_reference (s_instance s) (s_table s) (s_threads s n'))
        else s_threads s n) as Q.
      { unfold M_Cache.step.
        destruct (move key value key_dec f by_reference (s_instance s) (s_table s) (s_threads s n')).
        cbn. unfold set_stage. rewrite Nat.eqb_sym. reflexivity. }
      rewrite Q in IH. destruct (Nat.eqb_spec n' n) as [->|D]; lia.
    - exact IH. }
  specialize (L schedule (starting key value asked)). cbn [starting s_threads left_over] in L.
  change (fold_left step schedule (starting key value asked)) with (run schedule) in L.
  destruct (run_good schedule N) as (_ & _ & F). specialize (F n).
  destruct (s_threads (run schedule) n) as [k|g k|g k|g k v|g k|g k|k v|] eqn:E; cbn [left_over] in L; try lia.
  - cbn in F. destruct F as [-> ->]. reflexivity.
  - contradiction.
Qed.

(** An answer that is returned by value is not read while it is written. *)
Theorem C200_no_race : forall schedule,
  by_reference = false -> ~ In Replace schedule -> ~ race key value (run schedule).
Proof.
  intros schedule R N (n & n' & g & k & v & _ & _ & C).
  destruct (run_good schedule N) as (_ & _ & F). specialize (F n'). rewrite C in F. cbn in F.
  destruct F as (_ & _ & _ & F). congruence.
Qed.
End Threads.

(** The points of a lanelet are returned by reference: one thread may copy them while another that asked for
    the same lanelet at the same time assigns them. *)
Theorem C200_race_refuted : exists (f : nat -> option nat) asked schedule,
  ~ In Replace schedule /\ race nat nat (run nat nat Nat.eq_dec f true asked schedule).
Proof.
  exists (fun k => Some k), (fun _ => 7%nat),
    [Step 1; Step 1; Step 2; Step 2; Step 2; Step 1; Step 1; Step 1].
  split.
  - cbn. intros H. repeat (destruct H as [H|H]; [discriminate|]). exact H.
  - exists 2%nat, 1%nat, 0%nat, 7%nat, 7%nat. split; [discriminate|]. split; reflexivity.
Qed.

(** When a map is activated while a thread is in a call, the call goes on with the instance that was destroyed. *)
Theorem C200_replace_refuted : exists (f : nat -> option nat) asked schedule,
  s_threads (run nat nat Nat.eq_dec f false asked schedule) 1 = Broken.
Proof.
  exists (fun k => Some k), (fun _ => 7%nat), [Step 1; Step 1; Replace; Step 1; Step 1]. reflexivity.
Qed.

Example C200_example :
  let s := run nat nat Nat.eq_dec (fun k => if Nat.eqb k 3 then None else Some (k * k)%nat) false (fun n => n)
    [Step 1; Step 2; Step 1; Step 3; Step 2; Step 3; Step 1; Step 2; Step 3; Step 2; Step 1; Step 1; Step 2;
     Step 1; Step 2; Step 3; Step 3; Step 3] in
  s_threads s 1 = Finished 1%nat (Some 1%nat) /\ s_threads s 2 = Finished 2%nat (Some 4%nat) /\
  s_threads s 3 = Finished 3%nat None.
Proof. repeat split. Qed.

Print Assumptions C199_answers.
Print Assumptions C199_unloaded.
Print Assumptions C199_repeated.
Print Assumptions C199_failed_refuted.
Print Assumptions C200_answers.
Print Assumptions C200_safe.
Print Assumptions C200_ends.
Print Assumptions C200_no_race.
Print Assumptions C200_race_refuted.
Print Assumptions C200_replace_refuted.
