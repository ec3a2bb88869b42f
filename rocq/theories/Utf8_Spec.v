(** Well-formed text, without the decoder: a sequence of Unicode scalar values. *)
From Verif Require Import Base Utf8_Model.
Local Open Scope N_scope.

Definition scalar (r : N) : Prop := r < 55296 \/ 57343 < r <= 1114111.

(** [text s l]: [s] is the UTF-8 form of the characters [l]. *)
Definition text (s : str) (l : list N) : Prop := Forall scalar l /\ s = concat (map encode_rune l).
