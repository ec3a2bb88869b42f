(** What an item shows that does things one after another. *)
From Verif Require Import Base Utf8_Model Out_Model Out_Spec Nest_Model Nest_Spec.

(** A command, whose output goroutine [t] copies in pieces, or a block with the writers [B]. *)
Inductive stage := SCmd (t : nat) (chunks : list str) | SBlock (B : list nat).
(** Who writes in a stage to writer [j], at once or through others. *)
Definition acts (ws : list nwriter) (calls : list (list (nat * wop))) (st : stage) (t : nat) : Prop :=
  match st with
  | SCmd t' _ => t = t'
  | SBlock B => exists c cs i o, c ∈ B /\ calls !! t = Some cs /\ (i, o) ∈ cs /\ under ws i c
  end.
(** Writer [j] gets these stages and is flushed by [fl] at the end. *)
Record staged (ws : list nwriter) (calls : list (list (nat * wop))) (before : nat -> nat -> Prop) (j : nat) (stages : list stage) (fl : nat) : Prop := Staged {
  (** The pieces of a command are what its goroutine writes to [j]. *)
  st_cmd : forall t chunks, SCmd t chunks ∈ stages -> exists cs, calls !! t = Some cs /\ calls_to j cs = map WWrite chunks;
  (** All inner writers of [j] are in a stage. *)
  st_inner : forall c w, ws !! c = Some w -> n_dest w = Into j -> exists B, SBlock B ∈ stages /\ c ∈ B;
  st_block : forall B c, SBlock B ∈ stages -> c ∈ B -> exists w, ws !! c = Some w /\ n_dest w = Into j;
  (** Nobody else writes to [j]. *)
  st_others : forall t cs, calls !! t = Some cs -> t <> fl -> (forall chunks, SCmd t chunks ∉ stages) -> calls_to j cs = [];
  st_flush : exists cs, calls !! fl = Some cs /\ calls_to j cs = [WFlush] /\ forall chunks, SCmd fl chunks ∉ stages;
  (** One stage after another. *)
  st_order : forall k k' st st' t t', stages !! k = Some st -> stages !! k' = Some st' -> k < k' -> acts ws calls st t -> acts ws calls st' t' -> before t t';
  st_last : forall st t, st ∈ stages -> acts ws calls st t -> before t fl;
  (** Nobody is in two stages. *)
  st_once_cmd : forall k k' t ch ch', stages !! k = Some (SCmd t ch) -> stages !! k' = Some (SCmd t ch') -> k = k';
  st_once : forall k k' B B' c, stages !! k = Some (SBlock B) -> stages !! k' = Some (SBlock B') -> c ∈ B -> c ∈ B' -> k = k' }.
(** The bytes of a stage: the output of the command; the lines of the block's items, each
    with its prefix, those of an item in order. *)
Definition stage_bytes (a : ansi_lib) (ws : list nwriter) (hist : nat -> history) (st : stage) (x : str) : Prop :=
  match st with
  | SCmd _ chunks => x = concat chunks
  | SBlock B => exists log, x = concat log.*2 /\ (forall c l, (c, l) ∈ log -> c ∈ B) /\
      forall c w, c ∈ B -> ws !! c = Some w -> of_writer c log = map (line_bytes a (n_as w)) (lines_of (hist c))
  end.
