(** What a user-defined value should be. *)
From Coq Require Import Ascii String List Bool Arith.
From Verif Require Import M_Condition M_Scope M_Parameter M_UserValue.
Import ListNotations.
Local Open Scope list_scope.

(** The condition [id] exists after the history [h]. *)
Definition mentions (id : nat) (e : event) : Prop := e = Made id \/ e = Gone id.
Definition exists_after (h : list event) (id : nat) : Prop :=
  exists h1 h2, h = h1 ++ Made id :: h2 /\ Forall (fun e => ~ mentions id e) h2.

(** Histories that can be: conditions are made once, and only existing ones receive or are destroyed. *)
Inductive possible : list event -> Prop :=
| possible_nil : possible []
| possible_made h id : possible h -> ~ exists_after h id -> possible (h ++ [Made id])
| possible_gone h id : possible h -> exists_after h id -> possible (h ++ [Gone id])
| possible_received h id m : possible h -> exists_after h id -> possible (h ++ [Received id m])
| possible_failed h : possible h -> possible (h ++ [Failed]).

(** Receiving failed, and since then there has always been some condition on a topic. *)
Definition broken (h : list event) : Prop :=
  exists h1 h2, h = h1 ++ Failed :: h2 /\ (exists id, exists_after h1 id) /\
    forall g1 g2, h2 = g1 ++ g2 -> exists id, exists_after (h1 ++ Failed :: g1) id.

(** The last message that the condition has received since it was made *)
Definition last_received (h : list event) (id : nat) (m : message) : Prop :=
  exists h1 h2, h = h1 ++ Received id m :: h2 /\
    Forall (fun e => ~ mentions id e /\ forall m', e <> Received id m') h2.
Definition nothing_received (h : list event) (id : nat) : Prop :=
  exists h1 h2, h = h1 ++ Made id :: h2 /\
    Forall (fun e => ~ mentions id e /\ forall m', e <> Received id m') h2.

(** Names of topics: /a/b-c/d *)
Definition part (s : str) : Prop := s <> [] /\ Forall (fun c => word c = true \/ c = hyphen) s.
Definition topic_name (s : str) : Prop :=
  exists parts final, s = concat (map (cons slash) parts) ++ slash :: final /\
    Forall part parts /\ final <> [] /\ Forall (fun c => word c = true) final.
Definition no_line_end (s : str) : Prop := Forall (fun c => line_end c = false) s.
