(** UTF-8 as Go's [range] over a string, [[]rune(s)] and [WriteRune] treat it
    (package unicode/utf8). *)
From Verif Require Import Base.
Local Open Scope N_scope.

Definition byte (c : ascii) : N := N_of_ascii c.
Definition rune_error : N := 65533.

Definition within (lo x hi : N) : bool := (lo <=? x) && (x <=? hi).
Definition tail_byte (x : N) : bool := within 128 x 191.

(** [utf8.DecodeRuneInString]: the first rune and how many bytes it takes; a byte
    that does not begin a rune counts as [rune_error] of one byte. *)
Definition decode_rune (s : str) : option (N * nat) :=
  match s with
  | [] => None
  | a :: s1 =>
      let x := byte a in
      if x <? 128 then Some (x, 1%nat)
      else match s1 with
      | [] => Some (rune_error, 1%nat)
      | b :: s2 =>
          let y := byte b in
          if within 194 x 223 && tail_byte y then Some ((x - 192) * 64 + (y - 128), 2%nat)
          else match s2 with
          | [] => Some (rune_error, 1%nat)
          | c :: s3 =>
              let z := byte c in
              if within 224 x 239 && within (if x =? 224 then 160 else 128) y (if x =? 237 then 159 else 191) && tail_byte z
              then Some ((x - 224) * 4096 + (y - 128) * 64 + (z - 128), 3%nat)
              else match s3 with
              | [] => Some (rune_error, 1%nat)
              | d :: _ =>
                  let w := byte d in
                  if within 240 x 244 && within (if x =? 240 then 144 else 128) y (if x =? 244 then 143 else 191) && tail_byte z && tail_byte w
                  then Some ((x - 240) * 262144 + (y - 128) * 4096 + (z - 128) * 64 + (w - 128), 4%nat)
                  else Some (rune_error, 1%nat)
              end
          end
      end
  end.

Definition of_byte (n : N) : ascii := ascii_of_N n.

(** [utf8.AppendRune]. *)
Definition encode_rune3 (r : N) : str := [of_byte (224 + r / 4096); of_byte (128 + (r / 64) mod 64); of_byte (128 + r mod 64)].
Definition encode_rune (r : N) : str :=
  if r <? 128 then [of_byte r]
  else if r <? 2048 then [of_byte (192 + r / 64); of_byte (128 + r mod 64)]
  else if within 55296 r 57343 || (1114111 <? r) then encode_rune3 rune_error
  else if r <? 65536 then encode_rune3 r
  else [of_byte (240 + r / 262144); of_byte (128 + (r / 4096) mod 64); of_byte (128 + (r / 64) mod 64); of_byte (128 + r mod 64)].

(** The runes of a string, each with the bytes it was read from. *)
Fixpoint units_fuel (fuel : nat) (s : str) : list (N * str) :=
  match fuel with
  | O => []
  | S fuel' =>
      match decode_rune s with
      | None => []
      | Some (r, n) => (r, take n s) :: units_fuel fuel' (drop n s)
      end
  end.
Definition units (s : str) : list (N * str) := units_fuel (length s) s.
Definition runes (s : str) : list N := (units s).*1.
Definition of_runes (l : list N) : str := concat (map encode_rune l).
