(** Where errors say they are: internal/errs/location.go and internal/errs/yaml.go. *)
From Verif Require Import Base Types_Model Path_Model Cond_Model Out_Model Doc_Model.

(** The elements of a cleaned absolute path. *)
Definition elements (p : str) : list str :=
  match p with [] => [] | [_] => [] | _ :: r => split_on slash r end.
(** What is left of two lists after the elements they begin with in common. *)
Fixpoint apart_from (b t : list str) : list str * list str :=
  match b, t with
  | x :: b', y :: t' => if decide (x = y) then apart_from b' t' else (b, t)
  | _, _ => (b, t)
  end.
(** [filepath.Rel] on Unix for an absolute base (what [os.Getwd] returns), written from
    its source: it walks both paths element by element. *)
Definition rel (base targ : str) : option str :=
  let b := clean base in
  let t := clean targ in
  if decide (b = t) then Some (lit ".")
  else if negb (is_abs t) then None
  else let '(up, down) := apart_from (elements b) (elements t) in
       Some (join_with [slash] (map (fun _ => lit "..") up ++ down)).

(** location.go 10-17; [cwd] is the result of [os.Getwd]. *)
Definition relative_path (cwd : option str) (path : str) : str :=
  match cwd with
  | None => path
  | Some d => match rel d path with
              | Some r => if has_prefix (lit "..") r then path else r
              | None => path
              end
  end.
(** location.go 19-28. *)
Definition format_location (cwd : option str) (path : str) (line column : nat) : str :=
  let p := relative_path cwd path in
  if 0 <? line then
    if 0 <? column then p ++ lit ":" ++ itoa line ++ lit ":" ++ itoa column
    else p ++ lit ":" ++ itoa line
  else p.

(** yaml.go 9: the expression [line (\d+):?] at the beginning of [s]: the digits, and
    what follows the match. *)
Definition is_digit (c : ascii) : bool := match Doc_Model.digit c with Some _ => true | None => false end.
Fixpoint take_digits (s : str) : str * str :=
  match s with
  | c :: r => if is_digit c then let '(ds, rest) := take_digits r in (c :: ds, rest) else ([], s)
  | [] => ([], [])
  end.
Definition line_here (s : str) : option (str * str) :=
  match strip_prefix (lit "line ") s with
  | None => None
  | Some r => match take_digits r with
              | ([], _) => None
              | (ds, ":"%char :: rest) => Some (ds, rest)
              | (ds, rest) => Some (ds, rest)
              end
  end.
(** yaml.go 11-22 (the leftmost match). *)
Fixpoint first_line (s : str) : option str :=
  match line_here s with
  | Some (ds, _) => Some ds
  | None => match s with [] => None | _ :: r => first_line r end
  end.
Definition yaml_location (msg : str) : Z :=
  match first_line msg with
  | Some ds => match atoi ds with Some n => n | None => 0%Z end
  | None => 0%Z
  end.
(** yaml.go 24-34; [remove_lines] is [ReplaceAllString] with an empty replacement. *)
Fixpoint remove_lines (fuel : nat) (s : str) : str :=
  match fuel with
  | O => s
  | S f => match line_here s with
           | Some (_, rest) => remove_lines f rest
           | None => match s with [] => [] | c :: r => c :: remove_lines f r end
           end
  end.
Definition trim_prefix (p s : str) : str := match strip_prefix p s with Some r => r | None => s end.
Definition clean_yaml (msg : str) : str :=
  let m := trim_prefix (lit "unmarshal errors:" ++ [nl] ++ lit "  ") (trim_prefix (lit "yaml: ") msg) in
  trim_space (remove_lines (length m) m).
