(** Specification of [when] conditions, independent of the matcher. *)
From Verif Require Import Base.

(** A Unicode white-space character, UTF-8 encoded. *)
Inductive uspace : str -> Prop :=
| us_ascii c : 9 <= nat_of_ascii c <= 13 \/ nat_of_ascii c = 32 -> uspace [c]
| us_nel : uspace ["194"%char; "133"%char]
| us_nbsp : uspace ["194"%char; "160"%char]
| us_ogham : uspace ["225"%char; "154"%char; "128"%char]
| us_2000 c : 128 <= nat_of_ascii c <= 138 -> uspace ["226"%char; "128"%char; c]
| us_2028 : uspace ["226"%char; "128"%char; "168"%char]
| us_2029 : uspace ["226"%char; "128"%char; "169"%char]
| us_202f : uspace ["226"%char; "128"%char; "175"%char]
| us_205f : uspace ["226"%char; "129"%char; "159"%char]
| us_3000 : uspace ["227"%char; "128"%char; "128"%char].

Inductive blank : str -> Prop :=
| blank_nil : blank []
| blank_cons e s : uspace e -> blank s -> blank (e ++ s).

(** [t] is [s] without surrounding white space. *)
Definition trimmed (s t : str) : Prop :=
  exists a b, s = a ++ t ++ b /\ blank a /\ blank b /\
    (forall e r, uspace e -> t <> e ++ r) /\ (forall e r, uspace e -> t <> r ++ e).

(** [u] is [t] without surrounding quotes of either kind. *)
Definition quote_char (c : ascii) : Prop := c = "'"%char \/ c = """"%char.
Definition unquoted (t u : str) : Prop :=
  exists a b, t = a ++ u ++ b /\ Forall quote_char a /\ Forall quote_char b /\
    (forall c r, quote_char c -> u <> c :: r) /\ (forall c r, quote_char c -> u <> r ++ [c]).

(** ASCII white space allowed around the operator. *)
Definition gap (w : str) : Prop :=
  Forall (fun c => c = "009"%char \/ c = "010"%char \/ c = "012"%char \/ c = "013"%char \/ c = " "%char) w.

(** [t] is the comparison [left op 'right'] or [left op "right"]; [eq] tells which
    operator. The left side is not empty and is on one line. *)
Definition comparison (t left right : str) (eq : bool) : Prop :=
  exists w1 w2 q, quote_char q /\ gap w1 /\ gap w2 /\
    t = left ++ w1 ++ (if eq then lit "==" else lit "!=") ++ w2 ++ [q] ++ right ++ [q] /\
    left <> [] /\ "010"%char ∉ left /\ q ∉ right.

(** Case variants of [false]; the long s folds to s. *)
Definition false_word (t : str) : Prop :=
  exists a b c d e, t = a ++ b ++ c ++ d ++ e /\
    a ∈ [lit "f"; lit "F"] /\ b ∈ [lit "a"; lit "A"] /\ c ∈ [lit "l"; lit "L"] /\
    d ∈ [lit "s"; lit "S"; ["197"%char; "191"%char]] /\ e ∈ [lit "e"; lit "E"].
