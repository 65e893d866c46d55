(** References to catalogs. *)
From Coq Require Import Ascii String List Bool Arith Lia Permutation.
From Verif Require Import M_Scope S_Scope P_Scope M_Catalog S_Catalog.
Import ListNotations.
Local Open Scope list_scope.

(** ** C237: which entry is meant *)

Lemma eqb_true a b : str_eqb a b = true <-> a = b.
Proof. unfold str_eqb. destruct (list_eq_dec ascii_dec a b); split; congruence. Qed.
Lemma eqb_same a : str_eqb a a = true.
Proof. apply eqb_true. reflexivity. Qed.
Lemma eqb_other a b : a <> b -> str_eqb a b = false.
Proof. intros N. destruct (str_eqb a b) eqn:E; [apply eqb_true in E; contradiction|reflexivity]. Qed.

Lemma supported_spec t : supported t = true <-> makeable t.
Proof.
  unfold supported. split.
  - intros H. apply existsb_exists in H. destruct H as (x & I & E). apply eqb_true in E. subst t.
    cbn in I. destruct I as [<-|[<-|[<-|[<-|[<-|[]]]]]]; constructor.
  - intros H. apply existsb_exists. destruct H; eexists; (split; [|apply eqb_same]); cbn; tauto.
Qed.

Lemma filter_nothing es name : Forall (fun x => n_name x <> name) es ->
  filter (fun e => str_eqb (n_name e) name) es = [].
Proof. induction 1 as [|x es H _ IH]; [reflexivity|]. cbn. rewrite eqb_other by exact H. exact IH. Qed.
Lemma choose_spec es name e : choose es name = Some e <-> only es name e.
Proof.
  unfold choose. split.
  - destruct (filter (fun e => str_eqb (n_name e) name) es) as [|x [|y l]] eqn:F; try discriminate.
    intros X. injection X as ->. revert F. induction es as [|z es IH]; cbn; [discriminate|].
    destruct (str_eqb (n_name z) name) eqn:E.
    + intros X. injection X as -> F. exists [], es. apply eqb_true in E. repeat split; auto.
      clear IH. induction es as [|y es IH]; constructor; cbn in F; destruct (str_eqb (n_name y) name) eqn:G; try discriminate.
      * intros Y. apply eqb_true in Y. congruence.
      * apply IH. exact F.
    + intros F. destruct (IH F) as (es1 & es2 & -> & N & A & B). exists (z :: es1), es2. repeat split; auto.
      constructor; [|exact A]. intros Y. apply eqb_true in Y. congruence.
  - intros (es1 & es2 & -> & N & A & B). rewrite filter_app. cbn. rewrite N, eqb_same, !filter_nothing by assumption.
    reflexivity.
Qed.

Lemma in_location_app l1 l2 name :
  in_location (l1 ++ l2) name = match in_location l1 name with Some es => Some es | None => in_location l2 name end.
Proof.
  induction l1 as [|[[n es]|] l1 IH]; cbn; [reflexivity| |exact IH]. destruct (str_eqb n name); [reflexivity|exact IH].
Qed.
Lemma find_catalog_concat ls name : find_catalog ls name = in_location (concat ls) name.
Proof.
  induction ls as [|l ls IH]; [reflexivity|]. cbn [find_catalog concat]. rewrite in_location_app, IH. reflexivity.
Qed.
Lemma find_catalog_in ls name es : find_catalog ls name = Some es -> In (name, es) (catalogs ls).
Proof.
  rewrite find_catalog_concat. unfold catalogs. induction (concat ls) as [|[[n x]|] l IH]; cbn; [discriminate| |exact IH].
  destruct (str_eqb n name) eqn:E; [|auto]. intros X. injection X as ->. apply eqb_true in E. subst. auto.
Qed.
Lemma find_catalog_none ls name : find_catalog ls name = None -> ~ In name (map fst (catalogs ls)).
Proof.
  rewrite find_catalog_concat. unfold catalogs. induction (concat ls) as [|[[n x]|] l IH]; cbn; [auto| |exact IH].
  destruct (str_eqb n name) eqn:E; [discriminate|]. intros X [Y|Y]; [|exact (IH X Y)].
  subst. rewrite eqb_same in E. discriminate.
Qed.
Lemma distinct_same ls name es es' : distinct ls -> In (name, es) (catalogs ls) -> In (name, es') (catalogs ls) -> es = es'.
Proof.
  unfold distinct. induction (catalogs ls) as [|[n x] l IH]; cbn; [tauto|]. intros D. inversion D; subst.
  intros [A|A] [B|B].
  - congruence.
  - injection A as -> ->. exfalso. apply H1. apply in_map_iff. exists (name, es'). auto.
  - injection B as -> ->. exfalso. apply H1. apply in_map_iff. exists (name, es). auto.
  - auto.
Qed.

(** If the names of catalogs are distinct, a reference is to an entry if and only if there is a catalog
    of that name in which this is the only entry of its name, and objects can be made of it. *)
Theorem C237_refer : forall ls catalog name e, distinct ls ->
  (refer (Some ls) catalog name = Some e <->
   exists es, In (catalog, es) (catalogs ls) /\ only es name e /\ makeable (n_tag e)).
Proof.
  intros ls catalog name e D. unfold refer. split.
  - destruct (find_catalog ls catalog) as [es|] eqn:F; [|discriminate].
    destruct (choose es name) as [x|] eqn:C; [|discriminate]. destruct (supported (n_tag x)) eqn:S; [|discriminate].
    intros X. injection X as ->. exists es. split; [apply find_catalog_in; exact F|].
    split; [apply choose_spec; exact C|apply supported_spec; exact S].
  - intros (es & I & O & M). destruct (find_catalog ls catalog) as [es'|] eqn:F.
    + rewrite (distinct_same ls catalog es' es D (find_catalog_in _ _ _ F) I).
      apply choose_spec in O. rewrite O. apply supported_spec in M. rewrite M. reflexivity.
    + exfalso. apply (find_catalog_none _ _ F). apply in_map_iff. exists (catalog, es). auto.
Qed.
(** So it does not matter in which order directories are gone through, files are listed, or which
    directory a file is in. *)
Theorem C237_order : forall ls ls' catalog name, distinct ls -> Permutation (concat ls) (concat ls') ->
  refer (Some ls) catalog name = refer (Some ls') catalog name.
Proof.
  intros ls ls' catalog name D P.
  assert (C : Permutation (catalogs ls) (catalogs ls')) by (apply Permutation_flat_map; exact P).
  assert (D' : distinct ls') by (eapply Permutation_NoDup; [apply Permutation_map; exact C|exact D]).
  assert (E : forall e, refer (Some ls) catalog name = Some e <-> refer (Some ls') catalog name = Some e).
  { intros e. rewrite !C237_refer by assumption. split; intros (es & I & R); exists es; (split; [|exact R]).
    - eapply Permutation_in; [exact C|exact I].
    - eapply Permutation_in; [apply Permutation_sym; exact C|exact I]. }
  destruct (refer (Some ls) catalog name) as [e|].
  - symmetry. apply E. reflexivity.
  - destruct (refer (Some ls') catalog name) as [e|]; [|reflexivity]. apply E. reflexivity.
Qed.
Definition car (name : string) (d : list (str * obj)) : entry :=
  {| n_tag := text "Vehicle"; n_name := text name; n_declared := d |}.
(** Refuted: it never matters. *)
Theorem C237_order_refuted : exists ls ls' catalog name, Permutation (concat ls) (concat ls') /\
  refer (Some ls) catalog name <> refer (Some ls') catalog name.
Proof.
  exists [[Some (text "cars", [car "a" []])]; [Some (text "cars", [car "b" []])]],
         [[Some (text "cars", [car "b" []])]; [Some (text "cars", [car "a" []])]], (text "cars"), (text "a").
  split; [apply perm_swap|discriminate].
Qed.
Example C237_example :
  let ls := [[None; Some (text "cars", [car "a" []; car "b" []])]; [Some (text "trucks", [car "b" []])]] in
  distinct ls /\ refer (Some ls) (text "cars") (text "b") = Some (car "b" []).
Proof.
  split; [|reflexivity]. unfold distinct. cbn. repeat constructor; cbn; [|tauto]. intros [X|[]]; discriminate.
Qed.

(** ** C238: what parameters mean in it *)

Lemma range_values name l : range name l = values l name.
Proof. reflexivity. Qed.
Lemma values_app a b name : values (a ++ b) name = values a name ++ values b name.
Proof. unfold values. rewrite filter_app, map_app. reflexivity. Qed.

Lemma insert_length l : forall e f, length (insert_all e f l) = length e.
Proof.
  induction l as [|a l IH]; intros e f; [reflexivity|]. unfold insert_all in *. cbn [fold_left]. rewrite IH. cbn.
  destruct (valid_name (fst a)); [apply update_length|reflexivity].
Qed.
Lemma insert_get l : forall e f g, valid l -> f < length e ->
  get (insert_all e f l) g =
  if g =? f then {| variables := variables (get e f) ++ l; outer := outer (get e f);
                    inner := inner (get e f); unnamed := unnamed (get e f) |} else get e g.
Proof.
  induction l as [|[n x] l IH]; intros e f g V L.
  - change (insert_all e f []) with e. destruct (Nat.eqb_spec g f) as [->|]; [|reflexivity].
    rewrite app_nil_r. destruct (get e f); reflexivity.
  - inversion V; subst. cbn [fst] in H1.
    change (insert_all e f ((n, x) :: l)) with (insert_all (step e (Define f n x)) f l).
    cbn [step]. rewrite H1.
    rewrite IH; [|exact H2|rewrite update_length; exact L]. rewrite !get_update, Nat.eqb_refl.
    destruct (Nat.ltb_spec f (length e)); [|lia]. cbn [andb variables outer inner unnamed].
    destruct (Nat.eqb_spec g f) as [->|D]; cbn [andb]; [|reflexivity]. rewrite <- app_assoc. reflexivity.
Qed.

Section Instance.
Variables (e : env) (f : frame_id) (assigned : list (str * obj)) (n : entry).
Hypothesis there : f < length e.
Hypothesis names_assigned : valid assigned.
Hypothesis names_declared : valid (n_declared n).

Let w := instantiate e f assigned n.
Lemma w_length : length w = S (length e).
Proof.
  unfold w, instantiate. cbv zeta. rewrite insert_length. cbn [step]. rewrite insert_length.
  destruct (Nat.ltb_spec f (length e)); [|lia]. rewrite app_length, update_length, insert_length. cbn. lia.
Qed.
Lemma w_new : get w (length e) =
  {| variables := n_declared n; outer := Some f; inner := []; unnamed := [] |}.
Proof.
  unfold w, instantiate. cbv zeta. rewrite insert_length.
  rewrite insert_get; [|exact names_declared|].
  2:{ cbn [step]. rewrite insert_length. destruct (Nat.ltb_spec f (length e)); [|lia].
      rewrite app_length, update_length, insert_length. cbn. lia. }
  rewrite Nat.eqb_refl. cbn [step]. rewrite insert_length. destruct (Nat.ltb_spec f (length e)); [|lia].
  rewrite get_app, update_length, insert_length, Nat.ltb_irrefl, Nat.eqb_refl. reflexivity.
Qed.
Lemma w_old : variables (get w f) = variables (get e f) ++ assigned.
Proof.
  unfold w, instantiate. cbv zeta. rewrite insert_length.
  rewrite insert_get; [|exact names_declared|].
  2:{ cbn [step]. rewrite insert_length. destruct (Nat.ltb_spec f (length e)); [|lia].
      rewrite app_length, update_length, insert_length. cbn. lia. }
  destruct (Nat.eqb_spec f (length e)) as [X|X]; [lia|]. cbn [step]. rewrite insert_length.
  destruct (Nat.ltb_spec f (length e)); [|lia].
  rewrite get_app, update_length, insert_length. destruct (Nat.ltb_spec f (length e)); [|lia].
  rewrite get_update, Nat.eqb_refl, insert_length. destruct (Nat.ltb_spec f (length e)); [|lia]. cbn [andb].
  rewrite insert_get by assumption. rewrite Nat.eqb_refl. destruct (n_name n); reflexivity.
Qed.
Lemma filter_all (l : list obj) : filter (fun _ => true) l = l.
Proof. induction l; cbn; congruence. Qed.
Definition verdict (l : list obj) : option result :=
  match l with [] => None | [x] => Some (Found x) | _ => Some Ambiguous end.
Lemma bfs_here g name l : values (variables (get w g)) name = l -> l <> [] ->
  bfs w (fun _ => true) (S (length w)) [g] name = verdict l.
Proof.
  intros V N. cbn [bfs map concat]. rewrite app_nil_r, range_values, V, filter_all. destruct l as [|x [|y l]]; [contradiction| |]; reflexivity.
Qed.
Lemma bfs_new name : values (n_declared n) name = [] -> bfs w (fun _ => true) (S (length w)) [length e] name = None.
Proof.
  intros V. cbn [bfs map concat]. rewrite w_new. cbn [variables unnamed]. rewrite app_nil_r, range_values, V.
  cbn. destruct (length w); reflexivity.
Qed.
Lemma outside_is name : values (variables (get e f) ++ assigned) name <> [] ->
  Some (outside e f assigned n name) = verdict (values (variables (get e f) ++ assigned) name).
Proof.
  intros N. unfold outside, ref, plain. cbn [absolute prefixes pname]. fold w. cbn [find_name].
  rewrite (bfs_here f name (values (variables (get e f) ++ assigned) name)); [|rewrite w_old; reflexivity|exact N].
  destruct (values _ name) as [|x [|y l]]; [contradiction| |]; reflexivity.
Qed.
Lemma inside_declared name : values (n_declared n) name <> [] ->
  Some (inside e f assigned n name) = verdict (values (n_declared n) name).
Proof.
  intros N. unfold inside, ref, plain. cbn [absolute prefixes pname]. fold w. cbn [find_name].
  rewrite (bfs_here (length e) name (values (n_declared n) name)); [|rewrite w_new; reflexivity|exact N].
  destruct (values _ name) as [|x [|y l]]; [contradiction| |]; reflexivity.
Qed.
Lemma inside_assigned name : values (n_declared n) name = [] -> values (variables (get e f) ++ assigned) name <> [] ->
  Some (inside e f assigned n name) = verdict (values (variables (get e f) ++ assigned) name).
Proof.
  intros V N. unfold inside, ref, plain. cbn [absolute prefixes pname]. fold w. rewrite w_length. cbn [find_name].
  rewrite bfs_new by exact V. rewrite w_new. cbn [outer].
  rewrite (bfs_here f name (values (variables (get e f) ++ assigned) name)); [|rewrite w_old; reflexivity|exact N].
  destruct (values (variables (get e f) ++ assigned) name) as [|x [|y l]]; [contradiction| |]; reflexivity.
Qed.
End Instance.

(** A parameter that is assigned once by a reference, is not declared by the entry, and has no value in
    the scope of the reference yet, has the value assigned. *)
Theorem C238_assigned : forall e f assigned n name x, f < length e -> valid assigned -> valid (n_declared n) ->
  values (n_declared n) name = [] -> values (variables (get e f)) name = [] -> values assigned name = [x] ->
  inside e f assigned n name = Found x.
Proof.
  intros e f assigned n name x L A D N O V.
  assert (W : values (variables (get e f) ++ assigned) name = [x]) by (rewrite values_app, O, V; reflexivity).
  pose proof (inside_assigned e f assigned n L A D name N) as H. rewrite W in H. injection H; [auto|discriminate].
Qed.
(** One that the entry declares has the value declared, whatever is assigned. *)
Theorem C238_declared : forall e f assigned n name x, f < length e -> valid assigned -> valid (n_declared n) ->
  values (n_declared n) name = [x] -> inside e f assigned n name = Found x.
Proof.
  intros e f assigned n name x L A D V.
  pose proof (inside_declared e f assigned n L D name) as H. rewrite V in H. injection H; [auto|discriminate].
Qed.
(** If a value is assigned that already has one in the scope of the reference, say because of another
    reference there, it is ambiguous, in the entry and in the scope. *)
Theorem C238_twice : forall e f assigned n name, f < length e -> valid assigned -> valid (n_declared n) ->
  values (n_declared n) name = [] -> values (variables (get e f)) name <> [] -> values assigned name <> [] ->
  inside e f assigned n name = Ambiguous /\ outside e f assigned n name = Ambiguous.
Proof.
  intros e f assigned n name L A D N O V.
  assert (W : exists x y l, values (variables (get e f) ++ assigned) name = x :: y :: l).
  { rewrite values_app. destruct (values (variables (get e f)) name) as [|x [|y l]]; [contradiction| |].
    - destruct (values assigned name) as [|y l]; [contradiction|]. exists x, y, l. reflexivity.
    - exists x, y, (l ++ values assigned name). reflexivity. }
  destruct W as (x & y & l & W).
  pose proof (inside_assigned e f assigned n L A D name N) as H. rewrite W in H.
  pose proof (outside_is e f assigned n L A D name) as G. rewrite W in G.
  split; [injection H; [auto|discriminate]|injection G; [auto|discriminate]].
Qed.
(** What is assigned is seen in the scope of the reference after it. *)
Theorem C238_seen : forall e f assigned n name x, f < length e -> valid assigned -> valid (n_declared n) ->
  values (variables (get e f)) name = [] -> values assigned name = [x] ->
  outside e f assigned n name = Found x.
Proof.
  intros e f assigned n name x L A D O V.
  assert (W : values (variables (get e f) ++ assigned) name = [x]) by (rewrite values_app, O, V; reflexivity).
  pose proof (outside_is e f assigned n L A D name) as H. rewrite W in H. injection H; [auto|discriminate].
Qed.
(** Refuted: a value assigned by a reference replaces the default that the entry declares. *)
Theorem C238_default_refuted : exists e f assigned n name x, f < length e /\ values assigned name = [x] /\
  inside e f assigned n name <> Found x.
Proof.
  exists env0, 0, [(text "mass", 2)], (car "a" [(text "mass", 1)]), (text "mass"), 2.
  split; [cbn; lia|]. split; [reflexivity|]. rewrite (C238_declared _ _ _ _ _ 1); try (repeat constructor); discriminate.
Qed.
(** Refuted: two references in the same scope can assign values of their own to a parameter. *)
Theorem C238_two_refuted : exists e f n n' name x y, f < length e /\ x <> y /\
  inside e f [(name, x)] n name = Found x /\
  inside (instantiate e f [(name, x)] n) f [(name, y)] n' name = Ambiguous.
Proof.
  exists env0, 0, (car "a" []), (car "b" []), (text "mass"), 1, 2. split; [cbn; lia|]. split; [discriminate|].
  split; [apply C238_assigned; try reflexivity; repeat constructor|].
  apply C238_twice; try reflexivity; try discriminate; repeat constructor.
Qed.
