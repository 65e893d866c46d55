(** * Model of traffic lights: bulbs, their text form, the lights of a map, the V2I mirror and the
    detected-state overrides.

    Paths are relative to /repo/simulation/traffic_simulator (include/... abbreviates
    include/traffic_simulator/traffic_lights/..., src/... abbreviates src/traffic_lights/...). *)
From Coq Require Import Ascii String List Bool Arith ZArith.
Import ListNotations.
Local Open Scope list_scope.

Definition str := list ascii.
Definition text (s : string) : str := list_ascii_of_string s.
Definition str_eqb (a b : str) : bool := if list_eq_dec ascii_dec a b then true else false.

(** include/traffic_light.hpp:46-52, 93-98, 152-166: the enumerations. *)
Inductive color := Green | Yellow | Red | White | UnknownColor.
Inductive status := SolidOn | SolidOff | Flashing | UnknownStatus.
Inductive shape :=
| Circle | Cross | Left | Down | Up | Right | LowerLeft | UpperLeft | LowerRight | UpperRight
| UnknownShape.

(** include/traffic_light.hpp:54-60, 100-105, 152-180: the numeric values. *)
Local Open Scope Z_scope.
Definition color_code (c : color) : Z :=
  match c with Green => 0 | Yellow => 1 | Red => 2 | White => 3 | UnknownColor => 4 end.
Definition status_code (s : status) : Z :=
  match s with SolidOn => 0 | SolidOff => 1 | Flashing => 2 | UnknownStatus => 3 end.
(** (arrow direction bits << 8) | category *)
Definition shape_code (s : shape) : Z :=
  match s with
  | Circle => 0
  | Cross => 1
  | Left => Z.lor (Z.shiftl 8 8) 2
  | Down => Z.lor (Z.shiftl 4 8) 2
  | Up => Z.lor (Z.shiftl 2 8) 2
  | Right => Z.lor (Z.shiftl 1 8) 2
  | LowerLeft => Z.lor (Z.shiftl 12 8) 2
  | UpperLeft => Z.lor (Z.shiftl 10 8) 2
  | LowerRight => Z.lor (Z.shiftl 5 8) 2
  | UpperRight => Z.lor (Z.shiftl 3 8) 2
  | UnknownShape => 3
  end.
Local Close Scope Z_scope.

(** include/traffic_light.hpp:66-79, 111-121, 186-203: the name tables, in the order of the
    source. *)
Definition color_table : list (str * color) :=
  [ (text "amber", Yellow); (text "green", Green); (text "red", Red); (text "white", White);
    (text "yellow", Yellow); (text "unknown", UnknownColor); (text "Green", Green);
    (text "Red", Red); (text "Yellow", Yellow) ].
Definition status_table : list (str * status) :=
  [ (text "solidOn", SolidOn); (text "solidOff", SolidOff); (text "flashing", Flashing);
    (text "unknown", UnknownStatus); (text "Blank", SolidOff); (text "none", SolidOff) ].
Definition shape_table : list (str * shape) :=
  [ (text "circle", Circle); (text "cross", Cross); (text "left", Left); (text "down", Down);
    (text "up", Up); (text "right", Right); (text "lowerLeft", LowerLeft);
    (text "upperLeft", UpperLeft); (text "lowerRight", LowerRight);
    (text "upperRight", UpperRight); (text "unknown", UnknownShape); (text "straight", Up) ].

(** unordered_map::at, src/traffic_light.cpp:21-28, 56-63, 88-95; [None] is the SyntaxError. *)
Fixpoint at_ {A} (t : list (str * A)) (n : str) : option A :=
  match t with
  | [] => None
  | (m, v) :: t' => if str_eqb m n then Some v else at_ t' n
  end.

Record bulb := { b_color : color; b_status : status; b_shape : shape }.

(** include/traffic_light.hpp:250-255, Bulb::hash. *)
Definition hash (b : bulb) : Z :=
  Z.lor (Z.lor (Z.shiftl (color_code (b_color b)) 24) (Z.shiftl (status_code (b_status b)) 16))
        (shape_code (b_shape b)).
(** include/traffic_light.hpp:257-260, operator< of Bulb. *)
Definition bulb_lt (a b : bulb) : bool := (hash a <? hash b)%Z.

(** std::set<Bulb>: a list kept sorted by [bulb_lt]; emplace does nothing if an equivalent element
    is present. *)
Fixpoint emplace (b : bulb) (l : list bulb) : list bulb :=
  match l with
  | [] => [b]
  | x :: l' => if bulb_lt b x then b :: l else if bulb_lt x b then x :: emplace b l' else l
  end.
(** include/traffic_light.hpp:474, TrafficLight::contains: std::set::find, by equivalence. *)
Definition contains (b : bulb) (l : list bulb) : bool :=
  existsb (fun x => negb (bulb_lt b x) && negb (bulb_lt x b)) l.

(** ** Printing *)

(** src/traffic_light.cpp:38-54 *)
Definition print_color (c : color) : str :=
  match c with
  | Green => text "green" | Yellow => text "yellow" | Red => text "red" | White => text "white"
  | UnknownColor => text "unknown"
  end.
(** src/traffic_light.cpp:73-86 *)
Definition print_status (s : status) : str :=
  match s with
  | SolidOn => text "solidOn" | SolidOff => text "solidOff" | Flashing => text "flashing"
  | UnknownStatus => text "unknown"
  end.
(** src/traffic_light.cpp:105-133 *)
Definition print_shape (s : shape) : str :=
  match s with
  | Circle => text "circle" | Cross => text "cross" | Left => text "left" | Down => text "down"
  | Up => text "up" | Right => text "right" | LowerLeft => text "lowerLeft"
  | UpperLeft => text "upperLeft" | LowerRight => text "lowerRight"
  | UpperRight => text "upperRight" | UnknownShape => text "unknown"
  end.
(** src/traffic_light.cpp:161-166 *)
Definition print_bulb (b : bulb) : str :=
  print_color (b_color b) ++ text " " ++ print_status (b_status b) ++ text " " ++
  print_shape (b_shape b).
(** src/traffic_light.cpp:198-206, operator<< of TrafficLight: [separator] is empty for the first
    bulb. *)
Fixpoint print_bulbs (separator : str) (l : list bulb) : str :=
  match l with
  | [] => []
  | b :: l' => separator ++ print_bulb b ++ print_bulbs (text ", ") l'
  end.
Definition print_light (l : list bulb) : str := print_bulbs [] l.

(** ** Parsing *)

(** The classes \s and \w of std::regex (ECMAScript) in the C locale. *)
Definition is_space (c : ascii) : bool :=
  let n := nat_of_ascii c in (n =? 32) || ((9 <=? n) && (n <=? 13)).
Definition is_word (c : ascii) : bool :=
  let n := nat_of_ascii c in
  ((48 <=? n) && (n <=? 57)) || ((65 <=? n) && (n <=? 90)) || ((97 <=? n) && (n <=? 122)) ||
  (n =? 95).
(** The characters the dot does not match. *)
Definition is_newline (c : ascii) : bool :=
  let n := nat_of_ascii c in (n =? 10) || (n =? 13).

Fixpoint strip_prefix (p s : str) : option str :=
  match p, s with
  | [], _ => Some s
  | x :: p', y :: s' => if ascii_dec x y then strip_prefix p' s' else None
  | _ :: _, [] => None
  end.

(** The backtracking search of std::regex_match: each piece of the pattern gives the list of the
    ways to go on (what the group captured, what is left), in the order in which they are tried. *)
Definition alternatives (names : list str) (s : str) : list (str * str) :=
  flat_map (fun n => match strip_prefix n s with Some r => [(n, r)] | None => [] end) names.
(** [(a|b|...)?], greedy: the empty capture comes last. *)
Definition opt_group (names : list str) (s : str) : list (str * str) :=
  alternatives names s ++ [([], s)].
(** [\s*], greedy: the longest run first. *)
Fixpoint spaces (s : str) : list str :=
  match s with
  | [] => [[]]
  | c :: s' => if is_space c then spaces s' ++ [s] else [s]
  end.
(** src/traffic_light.cpp:147-149: the pattern
    ^(colors)?\s*(statuses)?\s*(shapes)?$, the alternatives being listed in the (unspecified)
    iteration orders [co], [so], [ho] of the three hash tables. *)
Definition bulb_matches (co so ho : list str) (s : str) : list (str * str * str) :=
  flat_map (fun '(c, r1) =>
    flat_map (fun r2 =>
      flat_map (fun '(st, r3) =>
        flat_map (fun r4 =>
          flat_map (fun '(h, r5) => match r5 with [] => [(c, st, h)] | _ => [] end)
            (opt_group ho r4))
          (spaces r3))
        (opt_group so r2))
      (spaces r1))
    (opt_group co s).

(** src/traffic_light.cpp:135-159, Bulb::make. [None] is the SyntaxError. *)
Definition or_default {A} (t : list (str * A)) (d : A) (n : str) : option A :=
  match n with [] => Some d | _ => at_ t n end.
Definition bulb_make (co so ho : list str) (s : str) : option bulb :=
  match bulb_matches co so ho s with
  | (c, st, h) :: _ =>
      match or_default color_table Green c, or_default status_table SolidOn st,
            or_default shape_table Circle h with
      | Some c, Some st, Some h => Some {| b_color := c; b_status := st; b_shape := h |}
      | _, _, _ => None
      end
  | [] => None
  end.

(** src/traffic_light.cpp:182-189, split: at least two word or space characters, the first a word
    character; then optionally a comma and spaces; then anything but line ends. The first group is a greedy run and what follows it is either a comma or a character that no shorter run could
    give back usefully (giving characters back only makes the last group longer, which must match
    to the end in any case), so the search is a single pass. *)
Fixpoint span (f : ascii -> bool) (s : str) : str * str :=
  match s with
  | [] => ([], [])
  | c :: s' => if f c then let (a, r) := span f s' in (c :: a, r) else ([], s)
  end.
Definition skip_spaces (s : str) : str := snd (span is_space s).
Definition split (s : str) : option (str * str) :=
  let (head, rest) := span (fun c => is_word c || is_space c) s in
  match head with
  | c :: _ :: _ =>
      if is_word c then
        let tail := match rest with
                    | "," :: r => skip_spaces r
                    | _ => rest
                    end%char in
        if existsb is_newline tail then None else Some (head, tail)
      else None
  | _ => None
  end.

(** The result of TrafficLight::set: the bulbs of the light afterwards, and whether a SyntaxError
    was thrown. [fuel] bounds the recursion; [NoFuel] is shown not to occur. *)
Inductive set_result := Set_ok (l : list bulb) | Set_error (l : list bulb) | NoFuel.

Section Orders.
Variables co so ho : list str.

(** src/traffic_light.cpp:180-196, TrafficLight::set. *)
Fixpoint light_set (fuel : nat) (l : list bulb) (s : str) : set_result :=
  match s with
  | [] => Set_ok l
  | _ =>
      match fuel with
      | O => NoFuel
      | S fuel' =>
          match split s with
          | None => Set_error l
          | Some (head, tail) =>
              match bulb_make co so ho head with
              | None => Set_error l
              | Some b => light_set fuel' (emplace b l) tail
              end
          end
      end
  end.
Definition set_state (l : list bulb) (s : str) : set_result := light_set (length s) l s.

(** ** The lights of a map *)

(** src/utils/traffic_lights.cpp:21-69 and src/lanelet_wrapper/traffic_lights.cpp:22-41: what the
    map says about an id. [ways] of a relation are its traffic_light line strings. Both are partial
    functions on ids; wayIds and trafficLightsIds read two accessors of the same relation (refers
    line strings, trafficLights()), taken to agree here. *)
Record road := {
  is_way : Z -> bool;
  relation : Z -> option (list Z);
  (** trafficLightRegulatoryElementIdsFromTrafficLightId *)
  relations_of : Z -> list Z }.
Variable road_map : road.

(** src/utils/traffic_lights.cpp:51-69, trafficLightsIds. [None]: invalid_argument. *)
Definition light_ids (id : Z) : option (list Z) :=
  match relation road_map id with
  | Some ways => Some ways
  | None => if is_way road_map id then Some [id] else None
  end.
(** src/utils/traffic_lights.cpp:21-41, 43-48, wayId. *)
Definition way_id (id : Z) : option Z :=
  if is_way road_map id then Some id
  else match relation road_map id with
       | Some (w :: _) => Some w
       | _ => None
       end.

(** include/traffic_light.hpp:453-466: [l_way] is way_id, [l_relations] regulatory_elements_ids;
    bulb positions are for display only and left out. Confidence is a number (a double). *)
Record light := { l_way : Z; l_relations : list Z; l_confidence : Z; l_bulbs : list bulb }.

(** src/traffic_light.cpp:168-178, the constructor. *)
Definition new_light (id : Z) : option light :=
  match way_id id with
  | Some w => Some {| l_way := w; l_relations := relations_of road_map w; l_confidence := 1;
                      l_bulbs := [] |}
  | None => None
  end.

(** traffic_lights_map_ (unordered_map) as an association list; its iteration order is the order of
    the list, arbitrary. *)
Definition lights := list (Z * light).
Fixpoint find_light (m : lights) (id : Z) : option light :=
  match m with
  | [] => None
  | (i, l) :: m' => if (i =? id)%Z then Some l else find_light m' id
  end.
Fixpoint update_light (m : lights) (id : Z) (f : light -> light) : lights :=
  match m with
  | [] => []
  | (i, l) :: m' => if (i =? id)%Z then (i, f l) :: m' else (i, l) :: update_light m' id f
  end.

(** Outcome of an operation on some state: done, or left by an exception with the state as it was
    when the exception was thrown. *)
Inductive outcome (S A : Type) := Done (s : S) (a : A) | Threw (s : S).
Arguments Done {S A}. Arguments Threw {S A}.

(** src/traffic_lights_base.cpp:126-145, getTrafficLight: adds the light if it is missing. *)
Definition get_light (m : lights) (id : Z) : outcome lights unit :=
  match find_light m id with
  | Some _ => Done m tt
  | None => match new_light id with
            | Some l => Done ((id, l) :: m) tt
            | None => Threw m
            end
  end.
(** src/traffic_lights_base.cpp:162-171, getTrafficLights. *)
Fixpoint get_each (m : lights) (ids : list Z) : outcome lights unit :=
  match ids with
  | [] => Done m tt
  | id :: ids' => match get_light m id with
                  | Done m' _ => get_each m' ids'
                  | Threw m' => Threw m'
                  end
  end.
Definition get_lights (m : lights) (id : Z) : outcome lights (list Z) :=
  match light_ids id with
  | None => Threw m
  | Some ids => match get_each m ids with
                | Done m' _ => Done m' ids
                | Threw m' => Threw m'
                end
  end.

Definition with_bulbs (l : light) (b : list bulb) : light :=
  {| l_way := l_way l; l_relations := l_relations l; l_confidence := l_confidence l; l_bulbs := b |}.

(** The loops of src/traffic_lights_base.cpp:80-82 (clear) and :89-91 (set). *)
Definition clear_each (m : lights) (ids : list Z) : lights :=
  fold_left (fun m id => update_light m id (fun l => with_bulbs l [])) ids m.
Fixpoint set_each (m : lights) (ids : list Z) (s : str) : outcome lights unit :=
  match ids with
  | [] => Done m tt
  | id :: ids' =>
      match find_light m id with
      | None => Threw m  (* not reached: the light was just added *)
      | Some l =>
          match set_state (l_bulbs l) s with
          | Set_ok b => set_each (update_light m id (fun l => with_bulbs l b)) ids' s
          | Set_error b => Threw (update_light m id (fun l => with_bulbs l b))
          | NoFuel => Threw m
          end
      end
  end.

(** src/traffic_lights_base.cpp:78-84, 86-93 without the notification. *)
Definition clear_lights (m : lights) (id : Z) : outcome lights unit :=
  match get_lights m id with
  | Done m' ids => Done (clear_each m' ids) tt
  | Threw m' => Threw m'
  end.
Definition add_lights (m : lights) (id : Z) (s : str) : outcome lights unit :=
  match get_lights m id with
  | Done m' ids => set_each m' ids s
  | Threw m' => Threw m'
  end.
(** src/traffic_lights_base.cpp:70-76, of a channel with no listener (the V2I channel). *)
Definition set_lights (m : lights) (id : Z) (s : str) : outcome lights unit :=
  match clear_lights m id with
  | Done m' _ => add_lights m' id s
  | Threw m' => Threw m'
  end.

(** src/traffic_lights_base.cpp:95-101, setTrafficLightsConfidence. *)
Definition with_confidence (l : light) (c : Z) : light :=
  {| l_way := l_way l; l_relations := l_relations l; l_confidence := c; l_bulbs := l_bulbs l |}.
Definition set_confidence (m : lights) (id : Z) (c : Z) : outcome lights unit :=
  match get_lights m id with
  | Done m' ids => Done (fold_left (fun m i => update_light m i (fun l => with_confidence l c)) ids m') tt
  | Threw m' => Threw m'
  end.

(** src/traffic_lights_base.cpp:45-60, compareTrafficLightsState. [contains(state)] parses the
    state each time and throws if it is no bulb; with no lights it is not parsed at all. *)
Fixpoint all_contain (m : lights) (ids : list Z) (s : str) : option bool :=
  match ids with
  | [] => Some true
  | id :: ids' =>
      match bulb_make co so ho s with
      | None => None
      | Some b =>
          if match find_light m id with Some l => contains b (l_bulbs l) | None => false end
          then all_contain m ids' s else Some false
      end
  end.
Definition compare (m : lights) (id : Z) (s : str) : outcome lights bool :=
  match get_lights m id with
  | Threw m' => Threw m'
  | Done m' ids =>
      if match s with [] => true | _ => str_eqb s (text "none") end then
        Done m' (forallb (fun i => match find_light m' i with
                                   | Some l => match l_bulbs l with [] => true | _ => false end
                                   | None => false
                                   end) ids)
      else match all_contain m' ids s with
           | Some b => Done m' b
           | None => Threw m'
           end
  end.

(** ** Two channels *)

(** include/traffic_lights.hpp:225-296: the conventional and V2I ground truths, and
    v2i_enabled_traffic_lights_. *)
Record channels := { conv : lights; v2i : lights; enabled : list Z }.
Definition with_conv (s : channels) (m : lights) : channels :=
  {| conv := m; v2i := v2i s; enabled := enabled s |}.
Definition with_v2i (s : channels) (m : lights) : channels :=
  {| conv := conv s; v2i := m; enabled := enabled s |}.
Definition is_enabled (s : channels) (id : Z) : bool := existsb (Z.eqb id) (enabled s).

Inductive change := SET | CLEAR | ADD.

(** include/traffic_lights.hpp:234-251, the listener. *)
Definition mirror (s : channels) (id : Z) (state : str) (k : change) : outcome channels unit :=
  if is_enabled s id then
    match (match k with
           | SET => set_lights (v2i s) id state
           | CLEAR => clear_lights (v2i s) id
           | ADD => add_lights (v2i s) id state
           end) with
    | Done m _ => Done (with_v2i s m) tt
    | Threw m => Threw (with_v2i s m)
    end
  else Done s tt.

(** src/traffic_lights_base.cpp:78-84, 86-93, 70-76 of the conventional channel, whose only
    listener is [mirror]. *)
Definition conv_clear (s : channels) (id : Z) : outcome channels unit :=
  match clear_lights (conv s) id with
  | Threw m => Threw (with_conv s m)
  | Done m _ => mirror (with_conv s m) id [] CLEAR
  end.
Definition conv_add (s : channels) (id : Z) (state : str) : outcome channels unit :=
  match add_lights (conv s) id state with
  | Threw m => Threw (with_conv s m)
  | Done m _ => mirror (with_conv s m) id state ADD
  end.
Definition conv_set (s : channels) (id : Z) (state : str) : outcome channels unit :=
  match conv_clear s id with
  | Threw s' => Threw s'
  | Done s1 _ =>
      match conv_add s1 id state with
      | Threw s' => Threw s'
      | Done s2 _ => mirror s2 id state SET
      end
  end.
Definition on_v2i (s : channels) (o : outcome lights unit) : outcome channels unit :=
  match o with Done m _ => Done (with_v2i s m) tt | Threw m => Threw (with_v2i s m) end.

(** include/traffic_lights.hpp:254-269, setV2IFeature. The recursive calls get the ways of the
    relation; a way that is itself a relation id would recurse again (ids of ways and relations are
    taken to be distinct here: a member that is not a way is ignored). *)
Definition set_feature_way (s : channels) (on : bool) (id : Z) : channels :=
  if is_way road_map id then
    {| conv := conv s; v2i := v2i s;
       enabled := if on then (if is_enabled s id then enabled s else id :: enabled s)
                  else filter (fun i => negb (i =? id)%Z) (enabled s) |}
  else s.
Definition set_feature (s : channels) (id : Z) (on : bool) : outcome channels unit :=
  match relation road_map id with
  | Some [] => Threw s  (* wayIds throws invalid_argument *)
  | Some ways => Done (fold_left (fun s w => set_feature_way s on w) ways s) tt
  | None => Done (set_feature_way s on id) tt
  end.

(** The operations a scenario can make. *)
Inductive op :=
| ConvSet (id : Z) (s : str) | ConvAdd (id : Z) (s : str) | ConvClear (id : Z)
| V2ISet (id : Z) (s : str) | V2IAdd (id : Z) (s : str) | V2IClear (id : Z)
| Feature (id : Z) (on : bool).
Definition exec (s : channels) (o : op) : outcome channels unit :=
  match o with
  | ConvSet id st => conv_set s id st
  | ConvAdd id st => conv_add s id st
  | ConvClear id => conv_clear s id
  | V2ISet id st => on_v2i s (set_lights (v2i s) id st)
  | V2IAdd id st => on_v2i s (add_lights (v2i s) id st)
  | V2IClear id => on_v2i s (clear_lights (v2i s) id)
  | Feature id on => set_feature s id on
  end.
Fixpoint run (s : channels) (l : list op) : outcome channels unit :=
  match l with
  | [] => Done s tt
  | o :: l' => match exec s o with Done s' _ => run s' l' | Threw s' => Threw s' end
  end.

(** ** Update requests and detected states *)

(** simulation_api_schema::TrafficSignal: id, relation ids, (bulb, confidence)s. *)
Record sig := { g_id : Z; g_relations : list Z; g_bulbs : list (bulb * Z) }.
(** include/traffic_light.hpp:522-536, the conversion. *)
Definition to_signal (l : light) : sig :=
  {| g_id := l_way l; g_relations := l_relations l;
     g_bulbs := map (fun b => (b, l_confidence l)) (l_bulbs l) |}.
(** src/traffic_lights_base.cpp:114-123. *)
Definition request_of (m : lights) : list sig := map (fun '(_, l) => to_signal l) m.

(** include/traffic_lights.hpp:66-81: std::map keyed by the id given; [find_light] and
    [update_light] serve here too (the list is kept in key order by [insert_key]). *)
Fixpoint insert_key (m : lights) (id : Z) (l : light) : lights :=
  match m with
  | [] => [(id, l)]
  | (i, k) :: m' => if (id <? i)%Z then (id, l) :: m else (i, k) :: insert_key m' id l
  end.
Definition detected_clear (m : lights) (id : Z) : lights :=
  filter (fun '(i, _) => negb (i =? id)%Z) m.
Definition detected_add (m : lights) (id : Z) (s : str) : outcome lights unit :=
  match (match find_light m id with
         | Some l => Done m l
         | None => match new_light id with
                   | Some l => Done (insert_key m id l) l
                   | None => Threw m
                   end
         end) with
  | Threw m' => Threw m'
  | Done m' l =>
      match set_state (l_bulbs l) s with
      | Set_ok b => Done (update_light m' id (fun l => with_bulbs l b)) tt
      | Set_error b => Threw (update_light m' id (fun l => with_bulbs l b))
      | NoFuel => Threw m'
      end
  end.
Definition detected_set (m : lights) (id : Z) (s : str) : outcome lights unit :=
  detected_add (detected_clear m id) id s.

(** include/traffic_lights.hpp:85-103, apply: the first state with the given id gets the bulbs of the
    override and keeps its relation ids, otherwise the override is appended. *)
Fixpoint override_first (r : list sig) (id : Z) (l : light) : option (list sig) :=
  match r with
  | [] => None
  | g :: r' =>
      if (g_id g =? id)%Z then
        Some ({| g_id := g_id g; g_relations := g_relations g; g_bulbs := g_bulbs (to_signal l) |} :: r')
      else option_map (cons g) (override_first r' id l)
  end.
Definition apply1 (r : list sig) (e : Z * light) : list sig :=
  match override_first r (fst e) (snd e) with
  | Some r' => r'
  | None => r ++ [to_signal (snd e)]
  end.
Definition apply (d : lights) (r : list sig) : list sig := fold_left apply1 d r.

End Orders.
Arguments Done {S A}. Arguments Threw {S A}.

(** ** Predictions *)

(** src/traffic_lights.cpp:79-102: the predictions of one light, (stamp in ns, bulbs), oldest first.
    The bulb is parsed after the (possibly new) entry of the light was made, so a bad state leaves an
    empty entry; that is not modelled. *)
Definition tolerance_ns : Z := 10000000.
Definition near (a b : Z) : bool := (Z.abs (a - b) <=? tolerance_ns)%Z.
Fixpoint add_prediction (l : list (Z * list bulb)) (t : Z) (b : bulb) : list (Z * list bulb) :=
  match l with
  | [] => [(t, [b])]
  | (t', bs) :: l' => if near t' t then (t', bs ++ [b]) :: l' else (t', bs) :: add_prediction l' t b
  end.

(** src/traffic_lights_base.cpp:34-43, isRequiredStopTrafficLightState, on the bulbs of the light. *)
Definition required_stop (l : list bulb) : bool :=
  contains {| b_color := Red; b_status := SolidOn; b_shape := Circle |} l ||
  contains {| b_color := Yellow; b_status := SolidOn; b_shape := Circle |} l.

(** src/traffic_lights_base.cpp:173-194: for each light on the path, its bulbs and the distance to
    its stop line along the spline (None: not crossed). *)
Definition nearer (best : option Z) (e : list bulb * option Z) : option Z :=
  if required_stop (fst e) then
    match snd e, best with
    | Some d, None => Some d
    | Some d, Some m => if (d <? m)%Z then Some d else best
    | None, _ => best
    end
  else best.
Definition stop_distance (lights : list (list bulb * option Z)) : option Z :=
  fold_left nearer lights None.
