(** * What a receiver makes of the published traffic lights. *)
From Coq Require Import Ascii String List Bool ZArith.
From Verif Require Import M_TrafficLight M_Publish.
Import ListNotations.
Local Open Scope Z_scope.

(** The constants of TrafficLightBulbV1.msg, lines "uint8 RED = 1" and so on: what a receiver takes a
    number to mean. *)
Definition color_named (n : Z) : option color :=
  match n with
  | 0 => Some UnknownColor | 1 => Some Red | 2 => Some Yellow | 3 => Some Green | 4 => Some White
  | _ => None
  end.
Definition shape_named (n : Z) : option shape :=
  match n with
  | 0 => Some UnknownShape | 1 => Some Circle | 2 => Some Left | 3 => Some Right | 4 => Some Up
  | 5 => Some UpperLeft | 6 => Some UpperRight | 7 => Some Down | 8 => Some LowerLeft
  | 9 => Some LowerRight | 10 => Some Cross | _ => None
  end.
Definition status_named (n : Z) : option status :=
  match n with
  | 0 => Some UnknownStatus | 1 => Some SolidOff | 2 => Some SolidOn | 3 => Some Flashing
  | _ => None
  end.
(** The message says: this bulb, with this confidence. *)
Definition says (m : bulb_message) (b : bulb) (confidence : Z) : Prop :=
  color_named (b_m_color m) = Some (b_color b) /\ shape_named (b_m_shape m) = Some (b_shape b) /\
  status_named (b_m_status m) = Some (b_status b) /\ b_m_confidence m = confidence.
(** The arrows that point up and to a side. *)
Definition upper_arrow (s : shape) : Prop := s = UpperLeft \/ s = UpperRight.
(** What a receiver can be told about a bulb: itself, or, for such an arrow, a bulb of that color and
    status whose shape is unknown. *)
Definition told (b : bulb) : bulb :=
  {| b_color := b_color b; b_status := b_status b;
     b_shape := match b_shape b with UpperLeft | UpperRight => UnknownShape | s => s end |}.
Definition tells (ms : list bulb_message) (bs : list bulb) (confidence : Z) : Prop :=
  Forall2 (fun m b => says m (told b) confidence) ms bs.

(** Ids that a 32-bit field holds. *)
Definition narrow (z : Z) : Prop := -2147483648 <= z < 2147483648.
Definition narrow_light (l : light) : Prop := narrow (l_way l) /\ Forall narrow (l_relations l).
Definition narrow_lights (m : lights) : Prop := Forall (fun '(_, l) => narrow_light l) m.

(** Lights with detected states over them. The overrides are kept under the way they are for, no way
    has two of them, no light is listed twice, and all ids fit their fields. *)
Definition proper (m d : lights) : Prop :=
  narrow_lights m /\ narrow_lights d /\ NoDup (map (fun e => l_way (snd e)) m) /\
  Forall (fun e => fst e = l_way (snd e)) d /\ NoDup (map fst d).
(** The bulbs and the confidence a light is to be shown with: those of the override of its way, or its
    own. *)
Definition override_of (d : lights) (way : Z) : option light :=
  option_map snd (find (fun e => fst e =? way) d).
Definition shown (d : lights) (l : light) : list bulb * Z :=
  match override_of d (l_way l) with
  | Some o => (l_bulbs o, l_confidence o)
  | None => (l_bulbs l, l_confidence l)
  end.

(** What was last said about the lights, the detected states and the detector in a history. *)
Fixpoint lights_of (m : lights) (l : list happening) : lights :=
  match l with
  | [] => m
  | Lights m' :: l' => lights_of m' l'
  | _ :: l' => lights_of m l'
  end.
Fixpoint detected_of (d : lights) (l : list happening) : lights :=
  match l with
  | [] => d
  | Detected d' :: l' => detected_of d' l'
  | _ :: l' => detected_of d l'
  end.

(** A detector was attached before or during the history. *)
Definition attached (k : system) (l : list happening) : Prop := k_detector k = true \/ In Attach l.

(** A prediction is told: its time, and each of its bulbs with full confidence. *)
Definition tells_phase (m : Z * list bulb_message) (p : Z * list bulb) : Prop :=
  fst m = fst p /\ tells (snd m) (snd p) 1.
(** The predictions of a way; none, if it has no entry. *)
Definition predicted (p : predictions) (way : Z) (l : list (Z * list bulb)) : Prop :=
  In (way, l) p \/ (l = [] /\ ~ In way (map fst p)).

(** Architectures with a date: "awf/universe/" and eight digits, and the date as a number. *)
Definition digit (c : ascii) : Prop := (48 <= nat_of_ascii c <= 57)%nat.
Fixpoint number (n : Z) (l : str) : Z :=
  match l with
  | [] => n
  | c :: l' => number (10 * n + (Z.of_nat (nat_of_ascii c) - 48)) l'
  end.
Definition dated (a : str) (date : Z) : Prop :=
  exists ds, a = (text "awf/universe/" ++ ds)%list /\ length ds = 8%nat /\ Forall digit ds /\
             number 0 ds = date.
