(** * Specification of substitutions in attribute values.

    A value is written as plain text and substitutions "$(name)" or "$(name argument)", whose
    argument may again contain substitutions. *)
From Coq Require Import Ascii String List Bool.
From Verif Require Import M_Scope M_Parameter M_Attribute S_Expression.
Import ListNotations.
Local Open Scope list_scope.

Inductive template :=
| Text (s : str)
| Sub0 (name : str)
| Sub (name : str) (argument : template)
| Seq (l r : template).

Fixpoint written (t : template) : str :=
  match t with
  | Text s => s
  | Sub0 n => chars "$(" ++ n ++ chars ")"
  | Sub n a => chars "$(" ++ n ++ chars " " ++ written a ++ chars ")"
  | Seq l r => written l ++ written r
  end.

(** A name of letters, digits, '_' and '-'. *)
Definition wordy (n : str) : Prop :=
  n <> [] /\ all (fun c => a_name_char c \/ c = "-"%char) n.
Definition one_line (s : str) : Prop :=
  ~ In (Ascii.ascii_of_nat 10) s /\ ~ In (Ascii.ascii_of_nat 13) s.
(** "$(" does not occur. *)
Definition unopened (s : str) : Prop := forall a b, s <> a ++ chars "$(" ++ b.

(** [expands tab t v]: replacing every substitution of [t] by its value gives [v]. *)
Inductive expands (tab : table) : template -> str -> Prop :=
| ex_text s : one_line s -> expands tab (Text s) s
| ex_sub0 n f v :
    wordy n -> tab n = Some f -> f [] = Returns v -> one_line v -> expands tab (Sub0 n) v
| ex_sub n a x f v :
    wordy n -> expands tab a x -> ~ In ")"%char x -> unopened x ->
    tab n = Some f -> f x = Returns v -> one_line v -> expands tab (Sub n a) v
| ex_seq l r x y : expands tab l x -> expands tab r y -> expands tab (Seq l r) (x ++ y).
