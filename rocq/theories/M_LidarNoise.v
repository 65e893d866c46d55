(** The noise model of point clouds, and which configuration of noise belongs to an entity:
    "selector" is simulation/simple_sensor_simulator/include/simple_sensor_simulator/sensor_simulation/
    noise_parameter_selector.hpp, "header" is .../sensor_simulation/lidar/lidar_noise_model_v1.hpp,
    "source" is simulation/simple_sensor_simulator/src/sensor_simulation/lidar/lidar_noise_model_v1.cpp.
    Numbers are exact reals; rounding is not modelled. *)
From Coq Require Import Reals List Ascii String Bool PeanoNat.
Import ListNotations.
Local Open Scope R_scope.

(** ** Wildcards *)

(** What is left of regular expressions after the translation: "." , ".*" and characters. *)
Inductive Atom : Set := Any | Many | Just (c : ascii).

(** Characters with another meaning in regular expressions; patterns with one of them are not modelled. *)
Definition special (c : ascii) : bool :=
  existsb (Ascii.eqb c) ["^"; "$"; "\"; "+"; "("; ")"; "["; "]"; "{"; "}"; "|"]%char.

(** [string_with_wildcards_to_regex], selector 119-126: "." is not escaped *)
Definition atom (c : ascii) : option Atom :=
  if Ascii.eqb c "*" then Some Many
  else if Ascii.eqb c "?" then Some Any
  else if Ascii.eqb c "." then Some Any
  else if special c then None
  else Some (Just c).
Fixpoint regex (pattern : string) : option (list Atom) :=
  match pattern with
  | EmptyString => Some []
  | String c rest =>
      match atom c, regex rest with
      | Some a, Some r => Some (a :: r)
      | _, _ => None
      end
  end.

(** "." of ECMAScript's regular expressions matches everything but ends of lines *)
Definition no_newline (c : ascii) : bool :=
  negb (Ascii.eqb c "010") && negb (Ascii.eqb c "013").

(** [std::regex_match] for such expressions: the whole text has to match *)
Fixpoint accepts (r : list Atom) : string -> bool :=
  match r with
  | [] => fun s => match s with EmptyString => true | String _ _ => false end
  | Just c :: r' => fun s => match s with String d s' => Ascii.eqb c d && accepts r' s' | EmptyString => false end
  | Any :: r' => fun s => match s with String d s' => no_newline d && accepts r' s' | EmptyString => false end
  | Many :: r' =>
      fix star (s : string) : bool :=
        accepts r' s || match s with String d s' => no_newline d && star s' | EmptyString => false end
  end.

Definition regex_match (text pattern : string) : option bool :=
  match regex pattern with Some r => Some (accepts r text) | None => None end.

(** [std::any_of]; [None] as soon as a pattern is met that is not modelled *)
Fixpoint any_of (f : string -> option bool) (l : list string) : option bool :=
  match l with
  | [] => Some false
  | a :: r => match f a with Some true => Some true | Some false => any_of f r | None => None end
  end.
Definition and_then (a b : option bool) : option bool :=
  match a with Some true => b | Some false => Some false | None => None end.

(** ** Parameters *)

(** The names of all parameters in the order in which they are listed, the values of those that are lists of
    strings or of numbers, and of those that are numbers. [common::getParameter] declares a parameter that is
    missing with an empty list or zero: lines 46-55 of get_parameter.hpp; the names it adds to the list belong to
    configurations that are in it already and are left out here. *)
Record Parameters : Set := parameters
  { listed : list string; strings : string -> list string; numbers : string -> list R; number : string -> R }.

Record Entity : Set := entity
  { entity_name : string; entity_type : string; entity_subtype : string; entity_x : R; entity_y : R }.

(** [rfind(base, 0) == 0], and the rest of the text *)
Fixpoint after (base s : string) : option string :=
  match base with
  | EmptyString => Some s
  | String c b => match s with String d s' => if Ascii.eqb c d then after b s' else None | EmptyString => None end
  end.
Fixpoint up_to_dot (s : string) : option string :=
  match s with
  | EmptyString => None
  | String c s' =>
      if Ascii.eqb c "." then Some EmptyString
      else match up_to_dot s' with Some t => Some (String c t) | None => None end
  end.

Definition base_path (topic version : string) : string := topic ++ ".noise." ++ version ++ ".".

(** [parseConfigNameFromParameter], selector 69-78, of a parameter that begins like that; empty otherwise: lines
    94-96, 155-157 *)
Definition config_name (parameter base : string) : string :=
  match after base parameter with
  | Some rest => match up_to_dot rest with Some name => name | None => EmptyString end
  | None => EmptyString
  end.
Definition empty (s : string) : bool := match s with EmptyString => true | String _ _ => false end.

(** [listAvailableNoiseConfigs], selector 80-103; the order of the set is not modelled *)
Definition available (P : Parameters) (topic version : string) : list string :=
  nodup string_dec
    (filter (fun n => negb (empty n)) (map (fun p => config_name p (base_path topic version)) (listed P))).

(** [matches_noise_application_entities], selector 110-145 *)
Definition applies (P : Parameters) (base : string) (e : Entity) (name : string) : option bool :=
  let path := (base ++ name ++ ".noise_application_entities.")%string in
  and_then (any_of (regex_match (entity_type e)) (strings P (path ++ "types")%string))
    (and_then (any_of (regex_match (entity_subtype e)) (strings P (path ++ "subtypes")%string))
       (any_of (regex_match (entity_name e)) (strings P (path ++ "names")%string))).

(** [findMatchingNoiseConfigForEntity], selector 105-168; [None]: a pattern is not modelled *)
Fixpoint find_in (P : Parameters) (base : string) (e : Entity) (names : list string) : option string :=
  match names with
  | [] => Some EmptyString
  | p :: rest =>
      let name := config_name p base in
      if empty name then find_in P base e rest
      else
        match applies P base e name with
        | Some true => Some name
        | Some false => find_in P base e rest
        | None => None
        end
  end.
Definition find_matching (P : Parameters) (e : Entity) (version topic : string) : option string :=
  find_in P (base_path topic version) e (listed P).

(** ** Rings *)

(** header 35-51 *)
Record Bin : Set := bin
  { radius_squared : R; rate : R; radial_mean : R; radial_sd : R; tangential_mean : R; tangential_sd : R }.
(** The constructor, header 42-50: it squares the radius it is given *)
Definition make_bin (radius rm rs tm ts tp : R) : Bin := bin (radius * radius) tp rm rs tm ts.

Record Config : Set := config { x_radius : R; bins : list Bin }.

(** The loop of source 57-61: it squares the radius too; [None]: one of the other lists is too short (undefined
    behaviour) *)
Fixpoint make_bins (radii rm rs tm ts tp : list R) : option (list Bin) :=
  match radii with
  | [] => Some []
  | r :: radii' =>
      match rm, rs, tm, ts, tp with
      | a :: rm', b :: rs', c :: tm', d :: ts', e :: tp' =>
          match make_bins radii' rm' rs' tm' ts' tp' with
          | Some l => Some (make_bin (r * r) a b c d e :: l)
          | None => None
          end
      | _, _, _, _, _ => None
      end
  end.

(** [Config::Config], source 33-65 *)
Definition make_config (P : Parameters) (topic name : string) : option Config :=
  let base := (topic ++ ".noise.v1." ++ name ++ ".")%string in
  match
    make_bins (numbers P (base ++ "ellipse_y_radii")%string)
      (numbers P (base ++ "distance.radial.mean.values")%string)
      (numbers P (base ++ "distance.radial.standard_deviation.values")%string)
      (numbers P (base ++ "distance.tangential.mean.values")%string)
      (numbers P (base ++ "distance.tangential.standard_deviation.values")%string)
      (numbers P (base ++ "true_positive.rate.values")%string)
  with
  | Some l => Some (config (number P (base ++ "true_positive.rate.ellipse_normalized_x_radius")%string) l)
  | None => None
  end.

Definition Rltb (a b : R) : bool := if Rlt_dec a b then true else false.

(** [getDistanceBin], source 67-80; [None]: there is no ring (undefined behaviour). A normalized radius of zero
    (division by zero) is not modelled. *)
Definition get_bin (c : Config) (x y : R) : option Bin :=
  let x_normalized := x / x_radius c in
  let d2 := x_normalized * x_normalized + y * y in
  match find (fun b => Rltb d2 (radius_squared b)) (bins c) with
  | Some b => Some b
  | None => match rev (bins c) with b :: _ => Some b | [] => None end
  end.

(** ** The model and its cache *)

Record Model : Set := model
  { topic : string; configs : list (string * Config); known : list (string * option Config) }.

Fixpoint assoc {A : Type} (k : string) (l : list (string * A)) : option A :=
  match l with
  | [] => None
  | (n, a) :: r => if String.eqb n k then Some a else assoc k r
  end.

Fixpoint make_all (P : Parameters) (t : string) (names : list string) : option (list (string * Config)) :=
  match names with
  | [] => Some []
  | n :: r =>
      match make_config P t n, make_all P t r with
      | Some c, Some l => Some ((n, c) :: l)
      | _, _ => None
      end
  end.

(** [LidarNoiseModelV1], source 24-31 *)
Definition make_model (P : Parameters) (t : string) : option Model :=
  match make_all P t (available P t "v1") with
  | Some l => Some (model t l [])
  | None => None
  end.

(** [getConfigFor], source 82-100; [None]: [at] throws, or a pattern is not modelled *)
Definition config_for (P : Parameters) (m : Model) (e : Entity) : option (option Config * Model) :=
  match assoc (entity_name e) (known m) with
  | Some r => Some (r, m)
  | None =>
      match find_matching P e "v1" (topic m) with
      | None => None
      | Some name =>
          if empty name
          then Some (None, model (topic m) (configs m) ((entity_name e, None) :: known m))
          else
            match assoc name (configs m) with
            | Some c => Some (Some c, model (topic m) (configs m) ((entity_name e, Some c) :: known m))
            | None => None
            end
      end
  end.

(** ** Clouds *)

Record Spot : Set := spot { at_x : R; at_y : R; at_z : R }.

(** The engine: what the k-th request for a yes or no with a probability, or for a normal deviate, yields. *)
Record Draws : Set := draws { yes : nat -> R -> bool; normal : nat -> R -> R -> R }.

Definition range (p : Spot) : R := sqrt (at_x p * at_x p + at_y p * at_y p + at_z p * at_z p).

(** source 158-170; a point at the sensor itself (0 / 0) is not modelled *)
Definition displace (p : Spot) (radial tangential : R) : Spot :=
  let d := range p in
  let rx := at_x p / d in
  let ry := at_y p / d in
  let rz := at_z p / d in
  let tx := ry in
  let ty := - rx in
  spot (at_x p + (rx * radial + tx * tangential)) (at_y p + (ry * radial + ty * tangential)) (at_z p + rz * radial).

Fixpoint set_nth {A : Type} (i : nat) (a : A) (l : list A) : list A :=
  match l, i with
  | [], _ => []
  | _ :: r, O => a :: r
  | b :: r, S j => b :: set_nth j a r
  end.

Record State : Set := state { spots : list Spot; marks : list bool; engine : nat }.

(** The body of the inner loop, source 153-172 *)
Definition noise_point (D : Draws) (b : Bin) (s : State) (i : nat) : State :=
  let k := engine s in
  if negb (yes D k (rate b))
  then state (spots s) (set_nth i true (marks s)) (S k)
  else
    match nth_error (spots s) i with
    | Some p =>
        state
          (set_nth i (displace p (normal D (S k) (radial_mean b) (radial_sd b))
                               (normal D (S (S k)) (tangential_mean b) (tangential_sd b))) (spots s))
          (marks s) (S (S (S k)))
    | None => s
    end.

(** [entity_to_point_indices], source 126-134 *)
Definition points_of (owners : list nat) (k : nat) : list nat :=
  filter (fun i => (nth i owners 0 =? k)%nat) (seq 0 (List.length owners)).

(** The body of the outer loop, source 137-172; [None]: an exception or undefined behaviour *)
Definition noise_entity (P : Parameters) (D : Draws) (ego_x ego_y : R) (owners : list nat)
    (s : Model * State) (ke : nat * Entity) : option (Model * State) :=
  let (m, st) := s in
  let (k, e) := ke in
  match points_of owners k with
  | [] => Some s
  | mine =>
      match config_for P m e with
      | None => None
      | Some (None, m') => Some (m', st)
      | Some (Some c, m') =>
          match get_bin c (entity_x e - ego_x) (entity_y e - ego_y) with
          | None => None
          | Some b => Some (m', fold_left (noise_point D b) mine st)
          end
      end
  end.
Fixpoint noise_entities (P : Parameters) (D : Draws) (ego_x ego_y : R) (owners : list nat)
    (s : Model * State) (l : list (nat * Entity)) : option (Model * State) :=
  match l with
  | [] => Some s
  | ke :: r =>
      match noise_entity P D ego_x ego_y owners s ke with
      | Some s' => noise_entities P D ego_x ego_y owners s' r
      | None => None
      end
  end.

(** [removeMarkedPoints], source 102-113 *)
Fixpoint remove_marked (spots_ : list Spot) (marks_ : list bool) : list Spot :=
  match spots_, marks_ with
  | p :: ps, b :: bs => if b then remove_marked ps bs else p :: remove_marked ps bs
  | _, _ => []
  end.

(** [applyNoise], source 115-176 *)
Definition apply_noise (P : Parameters) (D : Draws) (m : Model) (ego_x ego_y : R) (cloud : list Spot)
    (owners : list nat) (entities : list Entity) (k : nat) : option (list Spot * Model * nat) :=
  if ((List.length cloud =? 0) || negb (List.length owners =? List.length cloud))%nat
  then Some (cloud, m, k)
  else
    let marks0 := map (fun o => (List.length entities <=? o)%nat) owners in
    match
      noise_entities P D ego_x ego_y owners (m, state cloud marks0 k) (combine (seq 0 (List.length entities)) entities)
    with
    | None => None
    | Some (m', s) => Some (remove_marked (spots s) (marks s), m', engine s)
    end.

(** [getDetectedEntityNames], .../sensor_simulation/lidar/raycaster.hpp 64-71, and
    [LidarSensor<PointCloud2>::raycast], .../src/sensor_simulation/lidar/lidar_sensor.cpp 40-52: the names are
    taken before the noise is applied. An owner that is no entity (undefined behaviour) does not occur there and
    is skipped here. *)
Definition detected_names (owners : list nat) (entities : list Entity) : list string :=
  flat_map (fun o => match nth_error entities o with Some e => [entity_name e] | None => [] end) owners.
Definition raycast (P : Parameters) (D : Draws) (m : Model) (ego_x ego_y : R) (cloud : list Spot)
    (owners : list nat) (entities : list Entity) (k : nat) : option (list Spot * list string) :=
  match apply_noise P D m ego_x ego_y cloud owners entities k with
  | Some (cloud', _, _) => Some (cloud', detected_names owners entities)
  | None => None
  end.
