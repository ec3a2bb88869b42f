(** Specification of interpolation, written without reference to the model's
    scanners: only literal texts and character classes. *)
From Verif Require Import Base.

Definition spec_ws (c : ascii) : Prop :=
  c = "009"%char \/ c = "010"%char \/ c = "012"%char \/ c = "013"%char \/ c = " "%char.

Definition spec_start (c : ascii) : Prop :=
  (97 <= nat_of_ascii c <= 122 \/ 65 <= nat_of_ascii c <= 90 \/ c = "_"%char).

Definition spec_namechar (c : ascii) : Prop :=
  spec_start c \/ 48 <= nat_of_ascii c <= 57 \/ c = "."%char.

(** A reference text [${{ name }}]. *)
Inductive ref_text : str -> str -> Prop :=
| ref_text_intro w1 c nm w2 :
    Forall spec_ws w1 -> spec_start c -> Forall spec_namechar nm -> Forall spec_ws w2 ->
    ref_text (lit "${{" ++ w1 ++ (c :: nm) ++ w2 ++ lit "}}") (c :: nm).

Definition starts_with_escape (s : str) : Prop := exists r, s = lit "$${{" ++ r.
Definition starts_with_ref (s : str) : Prop := exists t n r, ref_text t n /\ s = t ++ r.

(** How a template is read: as a sequence of escapes, references and other bytes. *)
Inductive piece := PEsc | PRef (name : str) | PChr (c : ascii).

Inductive reads : str -> list piece -> Prop :=
| reads_nil : reads [] []
| reads_esc s ps : reads s ps -> reads (lit "$${{" ++ s) (PEsc :: ps)
| reads_ref t n s ps : ref_text t n -> reads s ps -> reads (t ++ s) (PRef n :: ps)
| reads_chr c s ps : ~ starts_with_escape (c :: s) -> ~ starts_with_ref (c :: s) ->
    reads s ps -> reads (c :: s) (PChr c :: ps).

(** The references of a template that are not escaped, in order. *)
Fixpoint refs_of (ps : list piece) : list str :=
  match ps with
  | [] => []
  | PRef n :: ps' => n :: refs_of ps'
  | _ :: ps' => refs_of ps'
  end.

Section Lookup.
  Context (getenv : str -> str).

  (** What a name means: [env.X] is the environment variable X; any other name
      is looked up with [look]. *)
  Inductive means (look : str -> str -> Prop) : str -> str -> Prop :=
  | means_env x : means look (lit "env." ++ x) (getenv x)
  | means_var n v : (forall x, n <> lit "env." ++ x) -> look n v -> means look n v.

  (** One left-to-right substitution. *)
  Inductive expands (look : str -> str -> Prop) : list piece -> str -> Prop :=
  | expands_nil : expands look [] []
  | expands_esc ps o : expands look ps o -> expands look (PEsc :: ps) (lit "${{" ++ o)
  | expands_ref n v ps o : means look n v -> expands look ps o -> expands look (PRef n :: ps) (v ++ o)
  | expands_chr c ps o : expands look ps o -> expands look (PChr c :: ps) (c :: o).

  (** The value of a template. *)
  Definition template_value (look : str -> str -> Prop) (s out : str) : Prop :=
    exists ps, reads s ps /\ expands look ps out.
End Lookup.

Definition in_map (m : gmap str str) (n v : str) : Prop := m !! n = Some v.

(** A reference that has no meaning. *)
Definition undefined_ref (m : gmap str str) (n : str) : Prop :=
  (forall x, n <> lit "env." ++ x) /\ m !! n = None.

Definition nul_free (s : str) : Prop := "000"%char ∉ s.

(** ** Values of a block of variables

    [Val n v]: variable [n] has value [v], where [block] variables are templates
    over the block itself, and names outside the block take their value from
    [parent]. *)
Section Values.
  Context (getenv : str -> str) (block parent : gmap str str).

  Inductive Val : str -> str -> Prop :=
  | Val_block n raw ps v :
      block !! n = Some raw -> reads raw ps -> expands getenv Val ps v -> Val n v
  | Val_parent n v :
      block !! n = None -> parent !! n = Some v -> Val n v.

  (** Textual references, including those behind an escape: the name [n]
      occurs as [${{ n }}] somewhere in the template of [x]. Only block
      variables that are not [env.]-prefixed matter for cycles. *)
  Definition mentions (x n : str) : Prop :=
    exists raw a t b, block !! x = Some raw /\ raw = a ++ t ++ b /\ ref_text t n /\
      (forall e, n <> lit "env." ++ e) /\ is_Some (block !! n).

  (** No variable mentions itself, directly or through others. *)
  Definition mention_acyclic : Prop := forall n, ~ tc mentions n n.
End Values.

(** A list whose consecutive elements are related. *)
Definition linked {A} (R : A -> A -> Prop) (l : list A) : Prop :=
  forall i a b, l !! i = Some a -> l !! (S i) = Some b -> R a b.

(** A chain that closes: its last element occurs earlier, and consecutive
    elements are related. *)
Definition closes {A} (R : A -> A -> Prop) (l : list A) : Prop :=
  exists pre n, l = pre ++ [n] /\ n ∈ pre /\ linked R l.
