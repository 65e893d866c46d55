(** What a user writes into the parameters of the noise, and what a point cloud shows. *)
From Coq Require Import Reals List Ascii String.
From Verif Require Import M_LidarNoise.
Local Open Scope R_scope.

(** A name fits a pattern: "*" stands for any text, "?" for any character, every other character for itself. *)
Inductive fits : string -> string -> Prop :=
| fits_nothing : fits EmptyString EmptyString
| fits_one c p s : fits p s -> fits (String "?" p) (String c s)
| fits_none p s : fits p s -> fits (String "*" p) s
| fits_more c p s : fits (String "*" p) s -> fits (String "*" p) (String c s)
| fits_same c p s : c <> "*"%char -> c <> "?"%char -> fits p s -> fits (String c p) (String c s).

Fixpoint within (c : ascii) (s : string) : Prop :=
  match s with EmptyString => False | String d s' => c = d \/ within c s' end.
(** Characters that mean something in regular expressions. *)
Definition meaningful : string := ".^$\+()[]{}|".
Definition plain (pattern : string) : Prop := forall c, within c pattern -> ~ within c meaningful.
Definition one_line (text : string) : Prop := ~ within "010" text /\ ~ within "013" text.

(** One of the patterns of a list fits. *)
Definition some_fits (patterns : list string) (text : string) : Prop := exists p, In p patterns /\ fits p text.
(** A configuration is meant for an entity. *)
Definition meant (P : Parameters) (topic version name : string) (e : Entity) : Prop :=
  let list_ what := strings P (topic ++ ".noise." ++ version ++ "." ++ name ++ ".noise_application_entities." ++ what) in
  some_fits (list_ "types"%string) (entity_type e) /\
  some_fits (list_ "subtypes"%string) (entity_subtype e) /\
  some_fits (list_ "names"%string) (entity_name e).
(** A configuration is there: a parameter of it is listed. *)
Definition there (P : Parameters) (topic version name : string) : Prop :=
  name <> EmptyString /\ ~ within "." name /\
  exists rest, In (topic ++ ".noise." ++ version ++ "." ++ name ++ "." ++ rest)%string (listed P).
(** All that is written in the lists of patterns is plain, and all names are on one line. *)
Definition readable (P : Parameters) (e : Entity) : Prop :=
  (forall n p, In p (strings P n) -> plain p) /\
  one_line (entity_type e) /\ one_line (entity_subtype e) /\ one_line (entity_name e).

(** How far an entity is away in units of the second axis of the ellipses. *)
Definition away (ratio x y : R) : R := sqrt ((x / ratio) * (x / ratio) + y * y).

(** The products of sight lines. *)
Definition dot (p q : Spot) : R := at_x p * at_x q + at_y p * at_y q + at_z p * at_z q.
Definition difference (p q : Spot) : Spot := spot (at_x p - at_x q) (at_y p - at_y q) (at_z p - at_z q).
Definition scaled (a : R) (p : Spot) : Spot := spot (a * at_x p) (a * at_y p) (a * at_z p).
(** How far a point is away across the ground. *)
Definition ground_range (p : Spot) : R := sqrt (at_x p * at_x p + at_y p * at_y p).

(** What the noise may do to a point of an entity with the values of a ring: it is lost, or moved by two deviates. *)
Definition fate (D : Draws) (b : Bin) (p : Spot) (f : option Spot) : Prop :=
  (f = None /\ exists k, yes D k (rate b) = false) \/
  (exists k i j, yes D k (rate b) = true /\
     f = Some (displace p (normal D i (radial_mean b) (radial_sd b)) (normal D j (tangential_mean b) (tangential_sd b)))).

(** What is left of points that have a fate, in their order. *)
Fixpoint left_over (l : list (option Spot)) : list Spot :=
  match l with
  | nil => nil
  | Some p :: r => cons p (left_over r)
  | None :: r => left_over r
  end.

(** A parameter belongs to a configuration. *)
Definition belongs (topic version name parameter : string) : Prop :=
  name <> EmptyString /\ ~ within "." name /\
  exists rest, parameter = (topic ++ ".noise." ++ version ++ "." ++ name ++ "." ++ rest)%string.
(** Of the configurations that are meant for an entity, the one with the first parameter in the list. *)
Definition first_meant (P : Parameters) (topic version name : string) (e : Entity) : Prop :=
  exists before p behind, listed P = (before ++ p :: behind)%list /\
    belongs topic version name p /\ meant P topic version name e /\
    forall q other, In q before -> belongs topic version other q -> ~ meant P topic version other e.

(** A model of noise is asked for the configurations of entities, one after the other. *)
Fixpoint asked (P : Parameters) (m : Model) (l : list Entity) : option Model :=
  match l with
  | nil => Some m
  | cons e r => match config_for P m e with Some (_, m') => asked P m' r | None => None end
  end.

(** The ring an entity is in: the first ellipse it is inside of. *)
Definition inside_first (radii : list R) (ratio x y : R) (i : nat) : Prop :=
  (exists r, nth_error radii i = Some r /\ away ratio x y < r) /\
  forall j r, (j < i)%nat -> nth_error radii j = Some r -> ~ away ratio x y < r.

(** What an entity should be given: the first configuration meant for it, or nothing if there is none. *)
Definition answer (P : Parameters) (t : string) (e : Entity) (r : option Config) : Prop :=
  match r with
  | Some c => exists n, first_meant P t "v1" n e /\ make_config P t n = Some c
  | None => forall n, there P t "v1" n -> ~ meant P t "v1" n e
  end.

(** What happens to a point: it is lost if it belongs to nobody, stays if its entity has no configuration, and gets the
    noise of the ring its entity is in otherwise. *)
Definition point_fate (P : Parameters) (D : Draws) (m : Model) (ego_x ego_y : R) (entities : list Entity)
    (owner : nat) (p : Spot) (f : option Spot) : Prop :=
  match nth_error entities owner with
  | None => f = None
  | Some e =>
      exists r m', config_for P m e = Some (r, m') /\
        match r with
        | None => f = Some p
        | Some c => exists b, get_bin c (entity_x e - ego_x) (entity_y e - ego_y) = Some b /\ fate D b p f
        end
  end.
