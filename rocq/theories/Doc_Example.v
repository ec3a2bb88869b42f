(** A small stand-in for the YAML library, for the examples: plain scalars, no
    tags; [Decode] looks through aliases. *)
From Verif Require Import Base Types_Model Include_Model Doc_Model Doc_Spec.

Fixpoint target (n : node) : node := match n with YAlias _ _ t => target t | _ => n end.
Definition plain (n : node) : option str := match target n with YScalar _ _ v => Some v | _ => None end.
Definition toy (doc : str -> ydoc) : yaml := {|
  y_parse := doc;
  y_strs n := match target n with YSeq _ l => mapM plain l | _ => None end;
  y_bool n := v ← plain n; if is v "true" then Some true else if is v "false" then Some false else None;
  y_int n := plain n ≫= atoi;
  y_include n := match target n with YMap _ c => field c "babfile" ≫= plain | _ => None end;
  y_regexp s := negb (is s "[") |}.

Definition sc (l : nat) (s : string) : node := YScalar l [] (lit s).
Definition kv (l : nat) (k : string) (v : node) : node * node := (sc l k, v).
Definition seq (l : nat) (its : list node) : node := YSeq l its.
Definition mp (l : nat) (c : list (node * node)) : node := YMap l c.
Definition Y0 : yaml := toy (fun _ => YSyntax).
(** A library that reads the two given files. *)
Definition Y2 (a b : node) : yaml := toy (fun data => if is data "a" then YDoc a else if is data "b" then YDoc b else YSyntax).
