(** The functions of Go's path/filepath used by the code, for Unix, written from
    their documentation (they are library code, not in /repo). *)
From Verif Require Import Base.

Definition slash : ascii := "/"%char.

(** [strings.Split(p, "/")]. *)
Fixpoint split_on (d : ascii) (s : str) : list str :=
  match s with
  | [] => [[]]
  | c :: s' =>
      if decide (c = d) then [] :: split_on d s'
      else match split_on d s' with
           | [] => [[c]]
           | w :: ws => (c :: w) :: ws
           end
  end.

(** [strings.Join(l, sep)]. *)
Fixpoint join_with (sep : str) (l : list str) : str :=
  match l with
  | [] => []
  | [w] => w
  | w :: l' => w ++ sep ++ join_with sep l'
  end.

Definition is_abs (p : str) : bool := match p with c :: _ => bool_decide (c = slash) | [] => false end.

(** One path element, on the stack of elements kept so far (innermost first). *)
Definition clean_step (rooted : bool) (acc : list str) (w : str) : list str :=
  if decide (w = [] \/ w = lit ".") then acc
  else if decide (w = lit "..") then
    match acc with
    | top :: rest => if decide (top = lit "..") then w :: acc else rest
    | [] => if rooted then [] else [w]
    end
  else w :: acc.

Definition clean_elems (rooted : bool) (l : list str) : list str :=
  rev (fold_left (clean_step rooted) l []).

(** [filepath.Clean]. *)
Definition clean (p : str) : str :=
  let rooted := is_abs p in
  let out := join_with [slash] (clean_elems rooted (split_on slash p)) in
  if rooted then slash :: out else match out with [] => lit "." | _ => out end.

(** [filepath.Join(a, b)]: empty elements are ignored, the result is cleaned. *)
Definition join2 (a b : str) : str :=
  match a, b with
  | [], [] => []
  | [], _ => clean b
  | _, [] => clean a
  | _, _ => clean (a ++ [slash] ++ b)
  end.

(** [filepath.Dir]: everything up to the last slash, cleaned. *)
Definition upto_last_slash (p : str) : str := rev (snd (span (fun c => negb (bool_decide (c = slash))) (rev p))).
Definition dir (p : str) : str := clean (upto_last_slash p).

(** [filepath.Base]. *)
Definition base (p : str) : str :=
  match p with
  | [] => lit "."
  | _ =>
      match snd (span (fun c => bool_decide (c = slash)) (rev p)) with
      | [] => lit "/"
      | r => rev (fst (span (fun c => negb (bool_decide (c = slash))) r))
      end
  end.

(** [filepath.Abs] with current directory [cwd]. *)
Definition abs_path (cwd p : str) : str := if is_abs p then clean p else join2 cwd p.

Example clean_examples :
  map (fun p => clean (lit p)) ["a/./b/../c"; "/../x"; "../../a/.."; ""; "/"; "a//b/"; "x/.."]%string
  = map lit ["a/c"; "/x"; "../.."; "."; "/"; "a/b"; "."]%string.
Proof. vm_compute. reflexivity. Qed.
Example dir_examples :
  map (fun p => dir (lit p)) ["/r/Babfile"; "/Babfile"; "Babfile"; "/r/sub/../Babfile"]%string = map lit ["/r"; "/"; "."; "/r"]%string /\
  map (fun p => base (lit p)) ["/r/Babfile"; "/"; ""; "/r/"]%string = map lit ["Babfile"; "/"; "."; "r"]%string.
Proof. vm_compute. split; reflexivity. Qed.
