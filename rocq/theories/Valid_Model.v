(** internal/parser/validate.go, internal/parser/parser.go 116-126 and
    internal/runner/runner.go 87-95, function by function.

    Every [range] over the task map is modelled by a list of keys [order]; the
    theorems only assume it is a permutation of the keys. *)
From Verif Require Import Base Types_Model.

(** ** Go slices of strings

    A heap is a list of backing arrays; an array is the list of its [cap] cells.
    A slice is an array and a length (all slices here start at offset 0).
    Array 0 has capacity 0: it backs the nil slice. *)
Notation heap := (list (list str)).
Record slice := Slice { sl_arr : nat; sl_len : nat }.

Definition nil_slice : slice := Slice 0 0.
Definition heap0 : heap := [[]].

(** What a reader of the slice sees. *)
Definition sl_read (h : heap) (s : slice) : list str := take (sl_len s) (default [] (h !! sl_arr s)).

Section Append.
  (** The growth policy: capacity allocated when an array of capacity [c] is full
      (Go runtime, growslice). It is a parameter: any policy is allowed, and a
      policy asking for less than [c + 1] is treated as [c + 1]. *)
  Context (grow : nat -> nat).

  (** Go's [append(s, x)]: in place when there is room, otherwise copied. *)
  Definition go_append (h : heap) (s : slice) (x : str) : heap * slice :=
    let arr := default [] (h !! sl_arr s) in
    if decide (sl_len s < length arr) then
      (<[sl_arr s := <[sl_len s := x]> arr]> h, Slice (sl_arr s) (S (sl_len s)))
    else
      (h ++ [take (sl_len s) arr ++ x :: replicate (grow (length arr) - S (sl_len s)) []],
       Slice (length h) (S (sl_len s))).
End Append.

(** Growth of a []string in the Go runtime below 256 elements (runtime/slice.go
    nextslicecap doubles; 16-byte strings fit the size classes exactly). *)
Definition go_grow (c : nat) : nat := match c with 0 => 1 | _ => 2 * c end.

(** ** Errors (internal/errs) without the display-only list of available names.
    [VCircular] carries the slice put in the error and, as a ghost, what it read
    as when the error was added. *)
Inductive verr :=
| VNotFound (line : nat) (name referenced_by : str)
| VCircular (chain : slice) (now : list str)
| VAliasConflict (line : nat) (alias name : str)
| VDuplicateAlias (line : nat) (alias name original : str).

(** validate.go 57-75. *)
Definition validate_dependencies (tasks : taskmap) (order : list str) : list verr :=
  flat_map (fun name =>
    match tasks !! name with
    | None => []
    | Some t =>
        flat_map (fun dep =>
          if tm_has tasks dep then []
          else [VNotFound (match t_deps_line t with 0 => t_line t | n => n end) dep name]) (t_deps t)
    end) order.

(** validate.go 83-100, one item. *)
Fixpoint item_task_refs (tasks : taskmap) (referenced_by : str) (it : run_item) : list verr :=
  match it with
  | RTask r => if tm_has tasks (r_task r) then [] else [VNotFound (r_line r) (r_task r) referenced_by]
  | RPar _ items => flat_map (item_task_refs tasks referenced_by) items
  | _ => []
  end.

(** validate.go 77-81. *)
Definition validate_run_task_refs (tasks : taskmap) (order : list str) : list verr :=
  flat_map (fun name =>
    match tasks !! name with
    | None => []
    | Some t => flat_map (item_task_refs tasks name) (t_run t)
    end) order.

(** ** validateRunCycles, validate.go 102-166 *)

(** The variables captured by the two closures. *)
Record cyc := Cyc {
  y_visited : gset str; y_rec : gset str; y_heap : heap; y_errs : list verr }.

Definition set_heap (h : heap) (s : cyc) : cyc := Cyc (y_visited s) (y_rec s) h (y_errs s).

Section Cycles.
  Context (grow : nat -> nat) (tasks : taskmap).

  (** [chain = append(chain, x); verrs.Add(...)], lines 113-118 and 148-153. *)
  Definition add_cycle (chain : slice) (x : str) (s : cyc) : cyc :=
    let '(h, c) := go_append grow (y_heap s) chain x in
    Cyc (y_visited s) (y_rec s) h (y_errs s ++ [VCircular c (sl_read h c)]).

  Section Items.
    Context (dfs : str -> slice -> cyc -> cyc).

    (** The body of the loop of [checkItems], lines 110-127: the new state and
        whether the enclosing [checkItems] returns. *)
    Fixpoint check_item (chain : slice) (it : run_item) (s : cyc) : cyc * bool :=
      match it with
      | RTask r =>
          if decide (r_task r ∈ y_rec s) then (add_cycle chain (r_task r) s, true)
          else if decide (r_task r ∉ y_visited s) then
            (if tm_has tasks (r_task r) then dfs (r_task r) chain s else s, false)
          else (s, false)
      | RPar _ items =>
          ((fix go (l : list run_item) (s : cyc) : cyc :=
              match l with
              | [] => s
              | i :: r => let '(s', stop) := check_item chain i s in if stop then s' else go r s'
              end) items s, false)
      | _ => (s, false)
      end.

    Fixpoint check_items (chain : slice) (l : list run_item) (s : cyc) : cyc :=
      match l with
      | [] => s
      | i :: r => let '(s', stop) := check_item chain i s in if stop then s' else check_items chain r s'
      end.

    (** The loop over deps, lines 143-158. The flag says that [dfs] returned from
        inside the loop (so that [recStack] is not reset). *)
    Fixpoint check_deps (chain : slice) (l : list str) (s : cyc) : cyc * bool :=
      match l with
      | [] => (s, false)
      | dep :: r =>
          if decide (dep ∈ y_rec s) then (add_cycle chain dep s, true)
          else if decide (dep ∉ y_visited s) then
            check_deps chain r (if tm_has tasks dep then dfs dep chain s else s)
          else check_deps chain r s
      end.
  End Items.

  (** [dfs], lines 132-161. [fuel] bounds the nesting of calls; the theorems show
      that [S (size tasks)] is always enough. *)
  Fixpoint dfs (fuel : nat) (name : str) (chain : slice) (s : cyc) : cyc :=
    match fuel with
    | 0 => s
    | S fuel' =>
        let '(h, c) := go_append grow (y_heap s) chain name in
        let s1 := Cyc ({[name]} ∪ y_visited s) ({[name]} ∪ y_rec s) h (y_errs s) in
        match tasks !! name with
        | None => Cyc (y_visited s1) (y_rec s1 ∖ {[name]}) (y_heap s1) (y_errs s1)
        | Some t =>
            let '(s2, returned) := check_deps (dfs fuel') c (t_deps t) s1 in
            if returned then s2
            else
              let s3 := check_items (dfs fuel') c (t_run t) s2 in
              Cyc (y_visited s3) (y_rec s3 ∖ {[name]}) (y_heap s3) (y_errs s3)
        end
    end.

  Definition cyc0 : cyc := Cyc ∅ ∅ heap0 [].

  (** Lines 163-167. *)
  Fixpoint cyc_loop (order : list str) (s : cyc) : cyc :=
    match order with
    | [] => s
    | name :: r =>
        cyc_loop r (if decide (name ∈ y_visited s) then s else dfs (S (size tasks)) name nil_slice s)
    end.

  Definition validate_run_cycles (order : list str) : cyc := cyc_loop order cyc0.
End Cycles.

(** ** validateAliases, validate.go 17-55 *)

(** One alias of one task; the map is [aliasToTask] (without the line). *)
Definition alias_step (tasks : taskmap) (name : str) (line : nat) (alias : str)
    (st : gmap str str * list verr) : gmap str str * list verr :=
  match alias with
  | [] => st
  | _ =>
      if tm_has tasks alias then (st.1, st.2 ++ [VAliasConflict line alias name])
      else match st.1 !! alias with
           | Some original => (st.1, st.2 ++ [VDuplicateAlias line alias name original])
           | None => (<[alias := name]> st.1, st.2)
           end
  end.

Definition alias_task (tasks : taskmap) (name : str) (st : gmap str str * list verr) :=
  match tasks !! name with
  | None => st
  | Some t => fold_left (fun st a => alias_step tasks name (t_line t) a st) (get_all_aliases t) st
  end.

Definition validate_aliases (tasks : taskmap) (order : list str) : list verr :=
  (fold_left (fun st n => alias_task tasks n st) order (∅, [])).2.

(** validate.go 8-15: the four passes, each with its own iteration order. *)
Record vorders := VOrders { o_deps : list str; o_refs : list str; o_cycles : list str; o_aliases : list str }.

Definition validate_all (grow : nat -> nat) (tasks : taskmap) (o : vorders) : list verr :=
  validate_dependencies tasks (o_deps o) ++
  validate_run_task_refs tasks (o_refs o) ++
  y_errs (validate_run_cycles grow tasks (o_cycles o)) ++
  validate_aliases tasks (o_aliases o).

(** The chains as the caller of [Parse] finds them in the returned errors. *)
Definition reported_chains (grow : nat -> nat) (tasks : taskmap) (order : list str) : list (list str) :=
  let s := validate_run_cycles grow tasks order in
  flat_map (fun e => match e with VCircular c _ => [sl_read (y_heap s) c] | _ => [] end) (y_errs s).

(** The same chains at the moment each error was added. *)
Definition chains_when_added (grow : nat -> nat) (tasks : taskmap) (order : list str) : list (list str) :=
  flat_map (fun e => match e with VCircular _ now => [now] | _ => [] end)
    (y_errs (validate_run_cycles grow tasks order)).

(** internal/parser/parser.go 116-126: later entries overwrite earlier ones. *)
Definition build_alias_map (tasks : taskmap) (order : list str) : gmap str str :=
  fold_left (fun m name =>
    match tasks !! name with
    | None => m
    | Some t => fold_left (fun m a => match a with [] => m | _ => <[a := name]> m end) (get_all_aliases t) m
    end) order ∅.

(** internal/runner/runner.go 87-95. *)
Definition resolve_task_name (aliases : gmap str str) (name : str) : str :=
  default name (aliases !! name).
