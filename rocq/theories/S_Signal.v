(** * Specification vocabulary for traffic signal controllers.

    Everything is said about the observable history of a run (oldest first). *)
From Coq Require Import ZArith List Bool.
From Verif Require Import M_Signal.
Import ListNotations.
Local Open Scope Z_scope.

Definition history (s : system) : list output := rev (out s).

(** The phases that controller [c] began, with the times, in order. *)
Fixpoint begins (c : nat) (h : list output) : list (nat * Z) :=
  match h with
  | [] => []
  | OBegin c' i t :: h' => if (c' =? c)%nat then (i, t) :: begins c h' else begins c h'
  | _ :: h' => begins c h'
  end.

(** The times of the frames of a run. *)
Fixpoint frames (es : list event) : list Z :=
  match es with
  | [] => []
  | Frame t :: es' => t :: frames es'
  | Action _ _ _ :: es' => frames es'
  end.
Definition untouched (c : nat) (es : list event) : Prop :=
  forall t n, ~ In (Action t c n) es.

(** Frames at [t0], [t0 + dt], [t0 + 2 dt], ... *)
Definition uniform (t0 dt : Z) (ts : list Z) : Prop :=
  forall k t, nth_error ts k = Some t -> t = t0 + Z.of_nat k * dt.

(** The duration of the [i]-th phase. *)
Definition lasts (ps : list phase) (i : nat) (d : Z) : Prop :=
  exists p, nth_error ps i = Some p /\ ph_dur p = Dur d.

(** Sum of the durations of [k] successive phases from phase [i], cyclically. *)
Definition duration (ps : list phase) (i : nat) : Z :=
  match nth_error ps (i mod length ps)%nat with
  | Some p => match ph_dur p with Dur d => d | Forever => 0 end
  | None => 0
  end.
Fixpoint total (ps : list phase) (i k : nat) : Z :=
  match k with
  | O => 0
  | S k' => duration ps i + total ps (S i) k'
  end.

Definition finite (ps : list phase) : Prop := forall p, In p ps -> exists d, ph_dur p = Dur d.
Definition non_negative (ps : list phase) : Prop :=
  forall p d, In p ps -> ph_dur p = Dur d -> 0 <= d.
Definition whole_seconds (tps : Z) (ps : list phase) : Prop :=
  forall p d, In p ps -> ph_dur p = Dur d -> (tps | d).

(** The sum of the durations of a list of phases. *)
Fixpoint cycle (ps : list phase) : Z :=
  match ps with
  | [] => 0
  | p :: ps' => match ph_dur p with Dur d => d + cycle ps' | Forever => cycle ps' end
  end.

(** [x] and [y] are neighbours in the list. *)
Definition consecutive {A} (h : list A) (x y : A) : Prop :=
  exists k, nth_error h k = Some x /\ nth_error h (S k) = Some y.

(** The part of the history about evaluations and begins. *)
Definition is_mark (o : output) : bool :=
  match o with OEval _ _ | OBegin _ _ _ => true | _ => false end.
Definition marks (s : system) : list output := filter is_mark (history s).

(** In history [h], the referenced controller [r] last began its first phase at [b], and controller
    [c] has not been evaluated later than [b + d] since. *)
Definition due (c r : nat) (d : Z) (h : list output) (b : Z) : Prop :=
  exists h1 h2, h = h1 ++ OBegin r 0 b :: h2 /\
    (forall t, ~ In (OBegin r 0 t) h2) /\
    (forall t, In (OEval c t) h2 -> t <= b + d).

(** In history [h], the phase that controller [c] began last is its last one, and its duration has
    elapsed at [now]. *)
Definition completed (c : nat) (ps : list phase) (h : list output) (now : Z) : Prop :=
  exists h0 i a d, begins c h = h0 ++ [(i, a)] /\ S i = length ps /\ lasts ps i d /\ d <= now - a.

(** ** Predictions *)

(** What phase [p] says about light [id] on the V2I channel: the V2I states if there are any,
    otherwise, for a light mirrored to V2I, the conventional ones. *)
Definition on (ch : channel) (id : Z) (s : signal) : bool :=
  (s_id s =? id) && match ch, s_channel s with V2I, V2I => true | Conventional, Conventional => true | _, _ => false end.
Definition says (enabled : Z -> bool) (p : phase) (id : Z) : list nat :=
  match filter (on V2I id) (ph_signals p) with
  | [] => if enabled id then map s_state (filter (on Conventional id) (ph_signals p)) else []
  | l => map s_state l
  end.

(** What is expected of light [id] in the [k]-th phase after phase [i]: what the latest of the
    phases [i+1 .. i+k] that mentions it says. *)
Fixpoint expected (enabled : Z -> bool) (ps : list phase) (i k : nat) (id : Z) : list nat :=
  match k with
  | O => []
  | S k' =>
      match nth_error ps ((i + k) mod length ps)%nat with
      | Some p => match says enabled p id with
                  | [] => expected enabled ps i k' id
                  | l => l
                  end
      | None => []
      end
  end.

(** The predictions currently published: those sent since the last clear. *)
Fixpoint published (o : list output) : list (Z * nat * Z) :=
  match o with
  | [] => []
  | OPredClear :: _ => []
  | OPred id st t :: o' => published o' ++ [(id, st, t)]
  | _ :: o' => published o'
  end.
Definition predictions (s : system) (id : Z) : list (nat * Z) :=
  map (fun x => (snd (fst x), snd x)) (filter (fun x => fst (fst x) =? id) (published (out s))).

(** The predictions expected after a change to phase [i]: for each of the next six phases the states
    expected in it, with the time until it begins. *)
Definition forecast (enabled : Z -> bool) (ps : list phase) (i : nat) (id : Z) : list (nat * Z) :=
  concat (map (fun k => map (fun st => (st, total ps i k)) (expected enabled ps i k id)) (seq 1 6)).

(** The last phase change in a history (newest first). *)
Fixpoint last_change (o : list output) : option (nat * nat * Z) :=
  match o with
  | [] => None
  | OBegin c i t :: _ => Some (c, i, t)
  | _ :: o' => last_change o'
  end.
