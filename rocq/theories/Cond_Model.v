(** Model of internal/condition/condition.go. *)
From Verif Require Import Base Interp_Model.

Definition bytes (l : list nat) : str := map chr l.

(** UTF-8 encodings of the code points with [unicode.IsSpace] (Go's
    strings.TrimSpace): U+0009-000D, U+0020, U+0085, U+00A0, U+1680, U+2000-200A,
    U+2028, U+2029, U+202F, U+205F, U+3000. *)
Definition space_encs : list str :=
  map bytes ([[9]; [10]; [11]; [12]; [13]; [32]; [194; 133]; [194; 160]; [225; 154; 128]]
    ++ map (fun k => [226; 128; 128 + k]) (seq 0 11)
    ++ [[226; 128; 168]; [226; 128; 169]; [226; 128; 175]; [226; 129; 159]; [227; 128; 128]]).

(** The length of the encoding from [encs] found at the head of [s]. *)
Definition enc_len (encs : list str) (s : str) : option nat :=
  match filter (fun e => has_prefix e s = true) encs with
  | e :: _ => Some (length e)
  | [] => None
  end.

(** strings.TrimLeftFunc for a set of encodings: drop encodings at the head. *)
Fixpoint trim_encs (encs : list str) (skip : nat) (s : str) : str :=
  match s with
  | [] => []
  | _ :: s' =>
      match skip with
      | S k => trim_encs encs k s'
      | O => match enc_len encs s with
             | Some n => trim_encs encs (pred n) s'
             | None => s
             end
      end
  end.

Definition trim_left (s : str) : str := trim_encs space_encs 0 s.
(** strings.TrimRightFunc: the same from the right. Go decodes the last rune by
    looking back for a lead byte, which finds exactly an encoding that is a
    suffix. *)
Definition trim_right (s : str) : str := rev (trim_encs (map (@rev ascii) space_encs) 0 (rev s)).

(** strings.TrimSpace (condition.go:31, 42, 52, 78). *)
Definition trim_space (s : str) : str := trim_right (trim_left s).

Definition SQ : ascii := "'"%char.
Definition DQ : ascii := """"%char.

(** strings.Trim with the cutset of both quotes (condition.go:45, 55). *)
Definition is_quote (c : ascii) : bool := bool_decide (c = SQ \/ c = DQ).
Fixpoint drop_quotes (s : str) : str :=
  match s with
  | c :: s' => if is_quote c then drop_quotes s' else s
  | [] => []
  end.
Definition trim_quotes (s : str) : str := rev (drop_quotes (rev (drop_quotes s))).

Inductive cmpop := OpEq | OpNe.

(** The part of comparisonPatternSQ/DQ after the lazy group (condition.go:12-13):
    white space, operator, white space, quote, text without the quote, quote, end. *)
Definition cmp_tail (q : ascii) (s : str) : option (cmpop * str) :=
  let '(_, s1) := span is_ws s in
  let op := match strip_prefix (lit "==") s1 with
            | Some r => Some (OpEq, r)
            | None => match strip_prefix (lit "!=") s1 with
                      | Some r => Some (OpNe, r)
                      | None => None
                      end
            end in
  match op with
  | None => None
  | Some (o, s2) =>
      let '(_, s3) := span is_ws s2 in
      match s3 with
      | c :: s4 =>
          if decide (c = q) then
            let '(rhs, s5) := span (fun d => negb (bool_decide (d = q))) s4 in
            if decide (s5 = [q]) then Some (o, rhs) else None
          else None
      | [] => None
      end
  end.

Definition NL : ascii := chr 10.

(** The lazy group [(.+?)]: the shortest non-empty prefix without a newline
    after which the rest matches (regexp leftmost-first, non-greedy). *)
Fixpoint cmp_from (q : ascii) (lhs s : str) : option (str * cmpop * str) :=
  match s with
  | [] => None
  | c :: s' =>
      if decide (c = NL) then None
      else match cmp_tail q s' with
           | Some (o, r) => Some (lhs ++ [c], o, r)
           | None => cmp_from q (lhs ++ [c]) s'
           end
  end.

(** evaluateOp, condition.go:60-75 (the Reason text is left out). *)
Definition evaluate_op (lhs : str) (o : cmpop) (rhs : str) : bool :=
  match o with
  | OpEq => bool_decide (lhs = rhs)
  | OpNe => negb (bool_decide (lhs = rhs))
  end.

(** evaluateComparison, condition.go:40-58. *)
Definition evaluate_comparison (s : str) : option bool :=
  match cmp_from SQ [] s with
  | Some (l, o, r) => Some (evaluate_op (trim_quotes (trim_space l)) o r)
  | None =>
      match cmp_from DQ [] s with
      | Some (l, o, r) => Some (evaluate_op (trim_quotes (trim_space l)) o r)
      | None => None
      end
  end.

(** strings.EqualFold(s, "false"): per rune, equal under simple case folding. The
    folding orbit of s also contains U+017F (bytes C5 BF). *)
Definition fold_variants : list (list str) :=
  [[lit "f"; lit "F"]; [lit "a"; lit "A"]; [lit "l"; lit "L"];
   [lit "s"; lit "S"; bytes [197; 191]]; [lit "e"; lit "E"]].

Fixpoint fold_match (vs : list (list str)) (s : str) : bool :=
  match vs with
  | [] => bool_decide (s = [])
  | alts :: vs' =>
      existsb (fun a => match strip_prefix a s with Some r => fold_match vs' r | None => false end) alts
  end.

(** evaluateTruthy, condition.go:77-89. *)
Definition evaluate_truthy (s0 : str) : bool :=
  let s := trim_space s0 in
  if decide (s = []) then false
  else if fold_match fold_variants s then false
  else true.

(** Evaluate on the interpolated text, condition.go:31-37. *)
Definition evaluate_text (x : str) : bool :=
  let s := trim_space x in
  match evaluate_comparison s with
  | Some b => b
  | None => evaluate_truthy s
  end.

(** Evaluate, condition.go:21-38: the [ShouldRun] field, or the error. *)
Definition evaluate (getenv : str -> str) (vars : gmap str str) (cond : str) : res ierr bool :=
  if decide (cond = []) then Ok true
  else match interpolate getenv vars cond with
       | Err e => Err e
       | Ok x => Ok (evaluate_text x)
       end.
