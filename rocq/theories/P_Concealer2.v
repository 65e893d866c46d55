(** * What tasks send and see; the caller after a failure; the end. *)
From Coq Require Import ZArith List Bool Arith Lia.
From Verif Require Import M_Concealer S_Concealer P_Concealer.
Import ListNotations.

(** ** Requests *)

Fixpoint after (q : prog) : Prop :=
  match q with
  | Done => True
  | Fail | Send _ _ | Look _ => False
  | Wait _ _ k | Lift k => after k
  end.
Fixpoint before (t : task) (q : prog) : Prop :=
  match q with
  | Done | Look _ | Lift _ => False
  | Fail => True
  | Send r k => purpose t r /\ after k
  | Wait _ _ k => before t k
  end.

Definition succeeded (t : task) (a : list (request * bool)) : Prop :=
  exists r n, purpose t r /\ n < 30 /\ a = repeat (r, false) n ++ [(r, true)].
Definition was_driving (t : task) (a : list (request * bool)) (b : list astate) : Prop :=
  t = TEngage /\ a = [] /\ b = [Driving].

Definition sending (t : task) (p : pc) (a : list (request * bool)) (b : list astate) : Prop :=
  match p with
  | Run q => (q = body t /\ a = [] /\ b = []) \/ (before t q /\ a = []) \/
             (after q /\ succeeded t a) \/ (q = Done /\ was_driving t a b)
  | Ready r k _ => purpose t r /\ after k /\ a = []
  | Try r n k => purpose t r /\ after k /\ n <= 30 /\ a = repeat (r, false) (30 - n)
  | Pop => succeeded t a \/ was_driving t a b
  | _ => False
  end.

Lemma repeat_snoc {A} (x : A) n : repeat x n ++ [x] = repeat x (S n).
Proof. induction n; [reflexivity|]. cbn. now rewrite IHn. Qed.

(** A task is one request, or looks at the state first. *)
Lemma body_cases t :
  (before t (body t) /\ forall f, body t <> Look f) \/
  (exists f, body t = Look f /\
     forall s, before t (f s) \/ (t = TEngage /\ s = Driving /\ f s = Done)).
Proof.
  destruct t; try (left; split; [cbn; auto|intros f; discriminate]).
  - right. eexists. split; [reflexivity|]. intros []; cbn; auto.
  - right. eexists. split; [reflexivity|]. intros []; cbn; auto.
  - right. eexists. split; [reflexivity|]. intros []; cbn; auto.
  - destruct module; [|left; split; [exact I|discriminate]].
    left. split; [|discriminate]. cbn. eauto.
Qed.

Lemma trace_sending f t p a b : trace f t p a b -> sending t p a b.
Proof.
  induction 1; cbn [sending] in *.
  - auto.
  - destruct IHtrace as [(E & -> & ->)|[(B & ->)|[(A & S)|(_ & W)]]]; auto; [|destruct B].
    destruct (body_cases t) as [[B _]|(g & E' & _)]; [rewrite <- E in B; destruct B|congruence].
  - destruct IHtrace as [(E & -> & ->)|[(B & ->)|[(A & S)|(E & W)]]];
      [|destruct B; auto|destruct A|discriminate].
    destruct (body_cases t) as [[B _]|(g & E' & _)]; [|congruence].
    rewrite <- E in B. destruct B. auto.
  - destruct IHtrace as [(E & -> & ->)|[(B & ->)|[(A & S)|(E & W)]]];
      [|destruct B|destruct A|discriminate].
    destruct (body_cases t) as [[_ N]|(g & E' & G)]; [destruct (N f0); auto|].
    rewrite E' in E. injection E as ->. destruct (G s) as [B|(-> & -> & D)]; [auto|].
    right. right. right. split; [exact D|]. repeat split.
  - destruct IHtrace as [(E & -> & ->)|[(B & ->)|[(A & S)|(E & W)]]];
      [|destruct B|auto|discriminate].
    destruct (body_cases t) as [[B _]|(g & E' & _)]; [rewrite <- E in B; destruct B|congruence].
  - destruct IHtrace as [(E & -> & ->)|[(B & ->)|[(A & S)|(E & W)]]];
      [|auto|auto|discriminate].
    destruct (body_cases t) as [[B _]|(g & E' & _)]; [|congruence]. rewrite <- E in B. auto.
  - destruct IHtrace as [(E & -> & ->)|[(B & ->)|[(A & S)|(E & W)]]];
      [|auto|auto|discriminate].
    destruct (body_cases t) as [[B _]|(g & E' & _)]; [|congruence]. rewrite <- E in B. auto.
  - destruct IHtrace as [(E & -> & ->)|[(B & ->)|[(A & S)|(E & W)]]];
      [|auto|auto|discriminate].
    destruct (body_cases t) as [[B _]|(g & E' & _)]; [|congruence]. rewrite <- E in B. auto.
  - destruct IHtrace as (P & A & ->). repeat split; auto.
  - destruct IHtrace as (P & A & L & ->). right. right. left. split; [exact A|].
    exists r, (30 - S n). repeat split; auto; lia.
  - destruct IHtrace as (P & A & L & ->). repeat split; auto; [lia|].
    rewrite repeat_snoc. f_equal. lia.
Qed.

(** ** States *)

Lemma advancing_snoc l x y :
  advancing ((l ++ [x]) ++ [y]) -> advancing (l ++ [x]) /\ rank x <= rank y.
Proof.
  induction l as [|a l IH]; [cbn; intuition|].
  destruct l as [|b l]; [cbn; intuition|].
  intros [H K]. destruct (IH K) as [I J]. split; [|exact J]. split; assumption.
Qed.
Lemma advancing_prefix l x : advancing (l ++ [x]) -> advancing l.
Proof.
  destruct (destruct_list (rev l)) as [[y [m E]]|E].
  - assert (l = rev m ++ [y]) as ->.
    { rewrite <- (rev_involutive l), E. reflexivity. }
    intros H. apply advancing_snoc in H. apply H.
  - assert (l = []) as -> by (rewrite <- (rev_involutive l), E; reflexivity). intros _. exact I.
Qed.

Ltac ntb H :=
  unfold not_to_be in H;
  repeat (apply andb_true_iff in H; destruct H as [H ?]);
  rewrite ?Nat.leb_le, ?Nat.ltb_lt in *.

Lemma staying x y s : not_to_be x y s = true -> rank x <= rank s < rank y.
Proof.
  unfold not_to_be. rewrite andb_true_iff, Nat.leb_le, Nat.ltb_lt. auto.
Qed.
Lemma leaving x y s : not_to_be x y s = false -> rank s < rank x \/ rank y <= rank s.
Proof.
  unfold not_to_be. rewrite andb_false_iff, Nat.leb_gt, Nat.ltb_ge. auto.
Qed.

(** The last state seen, [P] of it whatever happens, [n] its least rank if the states advance. *)
Definition seen_last (b : list astate) (P : astate -> Prop) (n : nat) : Prop :=
  exists b0 s, b = b0 ++ [s] /\ P s /\ (advancing b -> n <= rank s).

Definition any (s : astate) : Prop := True.

Lemma seen_more b P n x y k s (Q : astate -> Prop) m :
  seen_last b P n -> not_to_be x y s = k ->
  Q s -> ((advancing (b ++ [s]) -> n <= rank s) -> advancing (b ++ [s]) -> m <= rank s) ->
  seen_last (b ++ [s]) Q m.
Proof.
  intros (b0 & s0 & -> & _ & A) _ HQ HM. exists (b0 ++ [s0]), s. split; [reflexivity|].
  split; [exact HQ|]. intros Hadv. apply HM; [|exact Hadv]. intros H.
  apply advancing_snoc in H. destruct H as [H K]. specialize (A H). lia.
Qed.

(** After the request for engagement. *)
Definition engage_after : prog := Wait WaitingForEngage Driving (Lift Done).

Inductive engaging : pc -> list astate -> Prop :=
| E_body : engaging (Run (body TEngage)) []
| E_initializing b : seen_last b any 1 ->
    engaging (Run (Wait Initializing WaitingForRoute engage_route)) b
| E_route b : seen_last b any 2 ->
    engaging (Run (Wait WaitingForRoute Planning engage_planning)) b
| E_planning b : seen_last b any 3 -> engaging (Run (Wait Planning WaitingForEngage engage_now)) b
| E_send b : seen_last b (fun s => s <> Planning) 4 -> engaging (Run (Send Engage engage_after)) b
| E_ready b d : seen_last b (fun s => s <> Planning) 4 -> engaging (Ready Engage engage_after d) b
| E_try b n : seen_last b (fun s => s <> Planning) 4 -> engaging (Try Engage n engage_after) b
| E_after b : seen_last b any 4 -> engaging (Run (Wait WaitingForEngage Driving (Lift Done))) b
| E_lift b : seen_last b (fun s => s <> WaitingForEngage) 5 -> engaging (Run (Lift Done)) b
| E_done b : seen_last b (fun s => s <> WaitingForEngage) 5 -> engaging (Run Done) b
| E_pop b : seen_last b (fun s => s <> WaitingForEngage) 5 -> engaging Pop b
| E_fail s : s = Undefined \/ s = ArrivedGoal \/ s = Finalizing -> engaging (Run Fail) [s].

Lemma seen_first s (P : astate -> Prop) n : P s -> n <= rank s -> seen_last [s] P n.
Proof. intros H K. exists [], s. auto. Qed.

Lemma seen_any b P n : seen_last b P n -> seen_last b any n.
Proof. intros (b0 & s & H & _ & K). exists b0, s. repeat split; auto. Qed.

Ltac exits H :=
  pose proof (leaving _ _ _ H) as L; cbn [rank] in L;
  eapply seen_more; eauto;
  [first [exact I | intros ->; cbn in L; lia]
  |let N := fresh in let A := fresh in intros N A; specialize (N A); lia].

Lemma trace_engaging p a b : trace false TEngage p a b -> engaging p b.
Proof.
  intros H. remember TEngage as t eqn:Et. remember false as f eqn:Ef.
  induction H; subst; try specialize (IHtrace eq_refl eq_refl); try discriminate.
  - constructor.
  - inversion IHtrace; subst. now constructor.
  - inversion IHtrace; subst. now constructor.
  - inversion IHtrace; subst. cbn [app]. destruct s; constructor; auto;
      apply seen_first; cbn; auto; try exact I; discriminate.
  - inversion IHtrace; subst. now constructor.
  - inversion IHtrace; subst; constructor; eapply seen_more; eauto; exact I.
  - inversion IHtrace; subst; constructor; exits H.
  - inversion IHtrace; subst; constructor; auto.
  - inversion IHtrace; subst; constructor. eapply seen_any; eauto.
  - inversion IHtrace; subst; constructor; auto.
Qed.

(** Planning a route. *)
Definition plan_after : prog := Wait WaitingForRoute Planning (Wait Planning WaitingForEngage Done).
Definition first_is (b : list astate) (s : astate) : Prop := exists b', b = s :: b'.

Inductive planning (route : nat) : pc -> list astate -> Prop :=
| P_body : planning route (Run (body (TPlan route))) []
| P_initializing b : seen_last b any 1 ->
    planning route (Run (Wait Initializing WaitingForRoute (plan_now route))) b
| P_arrived : planning route (Run (Wait ArrivedGoal WaitingForRoute (plan_now route))) [ArrivedGoal]
| P_send b : seen_last b (fun s => s <> Initializing \/ exists s, b = [ArrivedGoal; s]) 2 ->
    planning route (Run (Send (SetRoute route) plan_after)) b
| P_ready b d : seen_last b (fun s => s <> Initializing \/ exists s, b = [ArrivedGoal; s]) 2 ->
    planning route (Ready (SetRoute route) plan_after d) b
| P_try b n : seen_last b (fun s => s <> Initializing \/ exists s, b = [ArrivedGoal; s]) 2 ->
    planning route (Try (SetRoute route) n plan_after) b
| P_after b : seen_last b any 2 ->
    planning route (Run (Wait WaitingForRoute Planning (Wait Planning WaitingForEngage Done))) b
| P_planning b : seen_last b any 3 -> planning route (Run (Wait Planning WaitingForEngage Done)) b
| P_done b : seen_last b (fun s => s <> Planning) 4 -> planning route (Run Done) b
| P_pop b : seen_last b (fun s => s <> Planning) 4 -> planning route Pop b
| P_fail s : s <> Initializing /\ s <> WaitingForRoute /\ s <> ArrivedGoal ->
    planning route (Run Fail) [s].

Lemma trace_planning route p a b : trace false (TPlan route) p a b -> planning route p b.
Proof.
  intros H. remember (TPlan route) as t eqn:Et. remember false as f eqn:Ef.
  induction H; subst; try specialize (IHtrace eq_refl eq_refl); try discriminate.
  - constructor.
  - inversion IHtrace; subst. now constructor.
  - inversion IHtrace; subst. now constructor.
  - inversion IHtrace; subst. cbn [app]. destruct s; constructor;
      first [repeat split; discriminate
            |apply seen_first; cbn; auto; first [exact I | left; discriminate]].
  - inversion IHtrace; subst.
  - inversion IHtrace; subst.
    + constructor. eapply seen_more; eauto; exact I.
    + apply staying in H. cbn in H. lia.
    + constructor. eapply seen_more; eauto; exact I.
    + constructor. eapply seen_more; eauto; exact I.
  - inversion IHtrace; subst.
    + constructor. pose proof (leaving _ _ _ H) as L; cbn [rank] in L.
      eapply seen_more; [eassumption|exact H| |].
      * left. intros ->. cbn in L. lia.
      * intros N A. specialize (N A). lia.
    + constructor. exists [ArrivedGoal], s. split; [reflexivity|]. split; [right; exists s; reflexivity|].
      intros A. cbn in A. lia.
    + constructor. exits H.
    + constructor. exits H.
  - inversion IHtrace; subst; constructor; auto.
  - inversion IHtrace; subst; constructor. eapply seen_any; eauto.
  - inversion IHtrace; subst; constructor; auto.
Qed.

(** Initialization. *)
Definition init_after : prog := Wait Initializing WaitingForRoute Done.

Inductive initing (pose : nat) : pc -> list astate -> Prop :=
| I_body : initing pose (Run (body (TInit pose))) []
| I_undefined b : seen_last b any 0 ->
    initing pose (Run (Wait Undefined Initializing (init_now pose))) b
| I_send b : seen_last b (fun s => s <> Undefined) 1 ->
    initing pose (Run (Send (InitialPose pose) init_after)) b
| I_ready b d : seen_last b (fun s => s <> Undefined) 1 ->
    initing pose (Ready (InitialPose pose) init_after d) b
| I_try b n : seen_last b (fun s => s <> Undefined) 1 ->
    initing pose (Try (InitialPose pose) n init_after) b
| I_after b : seen_last b any 1 -> initing pose (Run (Wait Initializing WaitingForRoute Done)) b
| I_done b : seen_last b (fun s => s <> Initializing) 2 -> initing pose (Run Done) b
| I_pop b : seen_last b (fun s => s <> Initializing) 2 -> initing pose Pop b
| I_fail s : 3 <= rank s -> initing pose (Run Fail) [s].

Lemma trace_initing pose p a b : trace false (TInit pose) p a b -> initing pose p b.
Proof.
  intros H. remember (TInit pose) as t eqn:Et. remember false as f eqn:Ef.
  induction H; subst; try specialize (IHtrace eq_refl eq_refl); try discriminate.
  - constructor.
  - inversion IHtrace; subst. now constructor.
  - inversion IHtrace; subst. now constructor.
  - inversion IHtrace; subst. cbn [app]. destruct s; constructor;
      first [cbn; lia | apply seen_first; cbn; auto; first [exact I | discriminate]].
  - inversion IHtrace; subst.
  - inversion IHtrace; subst; constructor; eapply seen_more; eauto; exact I.
  - inversion IHtrace; subst; constructor; exits H.
  - inversion IHtrace; subst; constructor; auto.
  - inversion IHtrace; subst; constructor. eapply seen_any; eauto.
  - inversion IHtrace; subst; constructor; auto.
Qed.

(** ** Facts about a record *)

Lemma not_destroyed es : forall s, ~ In Destroy es -> a_final s = false ->
  (match main s with Finalizing1 => False | _ => True end) ->
  a_final (run s es) = false.
Proof.
  induction es as [|e es IH]; intros s N A M; [exact A|].
  cbn [run fold_left]. apply IH.
  - intros H. apply N. now right.
  - destruct e; cbn; try exact A.
    + destruct (idle s); exact A.
    + unfold proceed. destruct (main s); try easy.
      * destruct (todo s) as [|c cs]; [exact A|]. destruct c; cbn;
          try destruct (initialized s); try destruct (thrown s); exact A.
      * destruct (queue s); exact A.
      * destruct (thread s); exact A.
    + unfold dispatch. destruct (thread s) as [| | |p|r k d|r n k| | |]; try exact A.
      * destruct (_ && _); exact A.
      * destruct (queue s); exact A.
      * destruct (queue s); exact A.
      * destruct p; try exact A. rewrite A. destruct (not_to_be _ _ _); [|exact A].
        destruct (time_is_up s); exact A.
      * destruct o; try exact A. destruct (alive s); [|exact A]. destruct (_ <? _)%Z; exact A.
      * destruct n; [exact A|]. destruct o; exact A.
      * destruct (queue s); exact A.
    + destruct (idle s); exact A.
  - destruct e; cbn; try exact M.
    + destruct (idle s); [exact I|exact M].
    + unfold proceed. destruct (main s) eqn:Em; try easy; cbn; try exact I.
      * destruct (todo s) as [|c cs]; [now rewrite Em|].
        destruct c; cbn; try destruct (initialized s); try destruct (thrown s); exact I.
      * destruct (queue s); exact I.
      * destruct (thread s); cbn; rewrite ?Em; exact I.
      * now rewrite Em.
    + unfold dispatch. destruct (thread s) as [| | |p|r k d|r n k| | |]; try exact M.
      * destruct (_ && _); exact M.
      * destruct (queue s); exact M.
      * destruct (queue s); exact M.
      * destruct p; try exact M. rewrite A. destruct (not_to_be _ _ _); [|exact M].
        destruct (time_is_up s); exact M.
      * destruct o; try exact M. destruct (alive s); [|exact M]. destruct (_ <? _)%Z; exact M.
      * destruct n; [exact M|]. destruct o; exact M.
      * destruct (queue s); exact M.
    + exfalso. apply N. now left.
Qed.

Lemma reach_good d es l1 e :
  says (log (run (start d) es)) l1 e -> ok (a_final (run (start d) es)) l1 e.
Proof. apply i_good, reach_inv. Qed.

Lemma reach_good_false d es l1 e : ~ destroyed es ->
  says (log (run (start d) es)) l1 e -> ok false l1 e.
Proof.
  intros N H. apply reach_good in H.
  rewrite (not_destroyed es (start d) N eq_refl I) in H. exact H.
Qed.

(** ** Time *)

Record timed (d : Z) (s : state) (n : Z) : Prop := {
  t_clock : clock s = n;
  t_limit : limit s = Some d \/ (limit s = None /\ In Lifted (log s));
  t_up : In TimeUp (log s) -> (d <= n)%Z;
  t_ready : forall r k e, thread s = Ready r k e -> (availability <= e)%Z;
  t_unavailable : forall r, In (Unavailable r) (log s) -> (availability < n)%Z;
  t_positive : (0 <= n)%Z
}.

Lemma timed_step d s n e : timed d s n ->
  timed d (step s e) (n + elapsed [e]).
Proof.
  assert (App : forall (l : list entry) e es, In e l -> In e (l ++ es))
    by (intros; apply in_or_app; auto).
  intros [A B C D E F].
  assert (Same : forall s', clock s' = clock s -> limit s' = limit s -> thread s' = thread s ->
            (exists es, log s' = log s ++ es /\ ~ In TimeUp es /\ forall r, ~ In (Unavailable r) es) ->
            timed d s' n).
  { intros s' H1 H2 H3 (es & H4 & H5 & H6). constructor; rewrite ?H1, ?H2, ?H3, ?H4; auto.
    - destruct B as [B|[B B']]; auto.
    - intros K. apply in_app_or in K. destruct K; [auto|easy].
    - intros r K. apply in_app_or in K. destruct K as [K|K]; [eauto|destruct (H6 r K)]. }
  assert (Disp : forall s' p es, clock s' = clock s -> limit s' = limit s -> thread s' = p ->
            log s' = log s ++ es -> (In TimeUp es -> (d <= n)%Z) ->
            (forall r, In (Unavailable r) es -> (availability < n)%Z) ->
            (forall r k e, p = Ready r k e -> (availability <= e)%Z) ->
            timed d s' n).
  { intros s' p es H1 H2 H3 H4 H5 H6 H7. constructor; rewrite ?H1, ?H2, ?H3, ?H4; auto.
    - destruct B as [B|[B B']]; auto.
    - intros K. apply in_app_or in K. destruct K; auto.
    - intros r K. apply in_app_or in K. destruct K; eauto. }
  assert (Q : timed d s n) by (constructor; auto).
  destruct e; cbn [elapsed fold_right]; rewrite ?Z.add_0_r.
  - cbn. destruct (idle s); [|exact Q]. apply Same; auto. exists []. cbn. auto.
  - cbn. unfold proceed. destruct (main s).
    + destruct (todo s) as [|c cs]; [exact Q|].
      destruct c; cbn; try destruct (initialized s); cbn; try destruct (thrown s);
        (apply Same; auto; eexists; (split; [reflexivity|]); split;
         [intros K|intros r K]; cbn in K; intuition discriminate).
    + apply Same; auto. eexists; (split; [reflexivity|]); split;
         [intros K|intros r K]; cbn in K; intuition discriminate.
    + destruct (queue s); (apply Same; auto; eexists; (split; [reflexivity|]); split;
         [intros K|intros r K]; cbn in K; intuition discriminate).
    + apply Same; auto. eexists; (split; [reflexivity|]); split;
         [intros K|intros r K]; cbn in K; intuition discriminate.
    + apply Same; auto. exists []. rewrite app_nil_r. cbn. auto.
    + apply Same; auto. exists []. rewrite app_nil_r. cbn. auto.
    + assert (G : timed d (set_main s Gone [] []) n)
        by (apply Same; auto; eexists; (split; [reflexivity|]); cbn; auto).
      case (thread s); intros; assumption.
    + exact Q.
  - cbn. unfold dispatch. destruct (thread s) as [| | |p|r k e|r m k| | |] eqn:Et.
    + destruct (_ && _); eapply Disp; try reflexivity; cbn; intuition discriminate.
    + destruct (queue s); eapply Disp; try reflexivity; cbn; intuition discriminate.
    + destruct (queue s); [exact Q|]. eapply Disp; try reflexivity; cbn; intuition discriminate.
    + destruct p as [| |r k|x y k|f|k].
      * eapply Disp; try reflexivity; cbn; intuition discriminate.
      * eapply Disp; try reflexivity; [| |discriminate].
        -- intros K. destruct (queue s); cbn in K; intuition discriminate.
        -- intros r K. destruct (queue s); cbn in K; intuition discriminate.
      * eapply Disp; try reflexivity; [cbn; easy|cbn; easy|].
        intros r' k' e' [= <- <- <-]. unfold availability in *. lia.
      * destruct (a_final s); [eapply Disp; try reflexivity; cbn; intuition discriminate|].
        destruct (not_to_be x y (seen s)).
        -- destruct (time_is_up s) eqn:Eu.
           ++ eapply Disp; try reflexivity; [| |discriminate].
              ** intros _. unfold time_is_up in Eu.
                 destruct (limit s) as [l|] eqn:El; [|discriminate].
                 apply Z.leb_le in Eu. destruct B as [B|[B _]]; [injection B as ->; lia|discriminate B].
              ** intros r K. destruct (queue s); cbn in K; intuition discriminate.
           ++ eapply Disp; try reflexivity; cbn; intuition discriminate.
        -- eapply Disp; try reflexivity; cbn; intuition discriminate.
      * eapply Disp; try reflexivity; cbn; intuition discriminate.
      * constructor; cbn; auto.
        -- right. split; [reflexivity|]. apply in_or_app. right. now left.
        -- intros K. apply in_app_or in K. destruct K as [K|[K|[]]]; [auto|discriminate].
        -- discriminate.
        -- intros r K. apply in_app_or in K. destruct K as [K|[K|[]]]; [eauto|discriminate].
    + destruct o; [eapply Disp; try reflexivity; cbn; intuition discriminate
                  |eapply Disp; try reflexivity; cbn; intuition discriminate|].
      destruct (alive s); [|eapply Disp; try reflexivity; cbn; intuition discriminate].
      destruct (e <? clock s)%Z eqn:Ee; [|exact Q].
      eapply Disp; try reflexivity; [| |discriminate].
      * intros K. destruct (queue s); cbn in K; intuition discriminate.
      * intros r' _. apply Z.ltb_lt in Ee. specialize (D r k e eq_refl). lia.
    + destruct m.
      * eapply Disp; try reflexivity; [| |discriminate].
        -- intros K. destruct (queue s); cbn in K; intuition discriminate.
        -- intros r' K. destruct (queue s); cbn in K; intuition discriminate.
      * destruct o; eapply Disp; try reflexivity; cbn; intuition discriminate.
    + destruct (queue s); [exact Q|]. eapply Disp; try reflexivity; cbn; intuition discriminate.
    + exact Q.
    + exact Q.
  - cbn. destruct (idle s); [|exact Q]. apply Same; auto. exists []. cbn. auto.
  - apply Same; auto. exists []. rewrite app_nil_r. cbn. auto.
  - constructor; cbn; auto; try lia.
    + intros K. specialize (C K). lia.
    + intros r K. specialize (E r K). lia.
  - apply Same; auto. exists []. rewrite app_nil_r. cbn. auto.
Qed.
