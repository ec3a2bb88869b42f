(** Model of internal/interpolate/interpolate.go. *)
From Verif Require Import Base.

(** Errors produced by interpolation and variable resolution
    (internal/errs/interpolate.go). Simplified: file, line and the list of
    available names (used only for the suggestion text) are left out. *)
Inductive ierr :=
| EVarNotFound (name : str)        (* errs.VarNotFoundError *)
| EVarCycle (chain : list str)     (* errs.VarCycleError *)
| EFuel.                           (* model only: recursion bound hit; proved unreachable *)

(** ** Generic left-to-right scan

    Go's [Regexp.ReplaceAllString], [ReplaceAllStringFunc],
    [FindAllStringSubmatch] and [strings.ReplaceAll] for patterns that never match
    the empty string: from the current position try the pattern; on a match emit
    it and jump over it, otherwise copy one byte. [m s] is the anchored match at
    the head of [s]: the payload and the number of bytes consumed. *)
Fixpoint scan {A} (m : str -> option (A * nat)) (skip : nat) (s : str) : list (A + ascii) :=
  match s with
  | [] => []
  | c :: s' =>
      match skip with
      | S k => scan m k s'
      | O => match m s with
             | Some (a, n) => inl a :: scan m (pred n) s'
             | None => inr c :: scan m 0 s'
             end
      end
  end.

(** The matches of a scan, left to right ([FindAllStringSubmatch]). *)
Fixpoint matches {A} (l : list (A + ascii)) : list A :=
  match l with [] => [] | inl a :: l' => a :: matches l' | inr _ :: l' => matches l' end.

(** The text after replacing each match by [f] ([ReplaceAll...]). *)
Fixpoint render {A} (f : A -> str) (l : list (A + ascii)) : str :=
  match l with [] => [] | inl a :: l' => f a ++ render f l' | inr c :: l' => c :: render f l' end.

(** Go regexp [\s] is [[\t\n\f\r ]]. *)
Definition is_ws (c : ascii) : bool :=
  bool_decide (code c ∈ [9; 10; 12; 13; 32]).

Definition between (lo hi : nat) (c : ascii) : bool := (lo <=? code c) && (code c <=? hi).

(** [[a-zA-Z_]] and [[a-zA-Z0-9_.]], interpolate.go:11. *)
Definition is_name_start (c : ascii) : bool := between 97 122 c || between 65 90 c || (code c =? 95).
Definition is_name_char (c : ascii) : bool :=
  is_name_start c || between 48 57 c || (code c =? 46).

Definition open_brace : str := lit "${{".
Definition close_brace : str := lit "}}".
Definition esc_brace : str := lit "$${{".

(** Pattern, interpolate.go:11, anchored at the head of [s]:
    dollar, two open braces, [\s] repeated, a captured name (start character
    then name characters), [\s] repeated, two close braces. White space, name and braces
    are disjoint character classes, so the greedy reading is the only one. *)
Definition match_ref (s : str) : option (str * nat) :=
  match strip_prefix open_brace s with
  | None => None
  | Some s1 =>
      let '(w1, s2) := span is_ws s1 in
      match s2 with
      | c :: s3 =>
          if is_name_start c then
            let '(nm, s4) := span is_name_char s3 in
            let '(w2, s5) := span is_ws s4 in
            match strip_prefix close_brace s5 with
            | Some _ => Some (c :: nm, 3 + length w1 + (1 + length nm) + length w2 + 2)
            | None => None
            end
          else None
      | [] => None
      end
  end.

(** EscapePattern, interpolate.go:12: the literal text [$${{]. *)
Definition match_lit (p : str) (s : str) : option (unit * nat) :=
  match strip_prefix p s with Some _ => Some (tt, length p) | None => None end.

(** escapePlaceholder, interpolate.go:14. *)
Definition NUL : ascii := chr 0.
Definition placeholder : str := NUL :: lit "ESCAPED_BRACE" ++ [NUL].

Definition env_prefix : str := lit "env.".

(** resolveVar, interpolate.go:68-89. [getenv] is [os.Getenv] (empty when
    unset). *)
Definition resolve_var (getenv : str -> str) (vars : gmap str str) (name : str) : res ierr str :=
  match strip_prefix env_prefix name with
  | Some e => Ok (getenv e)
  | None => match vars !! name with
            | Some v => Ok v
            | None => Err (EVarNotFound name)
            end
  end.

(** [strings.ReplaceAll s p r] for non-empty [p]. *)
Definition replace_all (p r : str) (s : str) : str := render (fun _ => r) (scan (match_lit p) 0 s).

(** The text written for a matched reference when it is undefined is the match
    itself (interpolate.go:49-52); the result is then discarded by every caller
    because an error is returned, so we write nothing. *)
Definition subst_ref (getenv : str -> str) (vars : gmap str str) (name : str) : str :=
  match resolve_var getenv vars name with Ok v => v | Err _ => [] end.

(** The errors collected, in order (interpolate.go:41, 50). *)
Fixpoint ref_errs (getenv : str -> str) (vars : gmap str str) (names : list str) : list ierr :=
  match names with
  | [] => []
  | n :: ns => match resolve_var getenv vars n with
               | Ok _ => ref_errs getenv vars ns
               | Err e => e :: ref_errs getenv vars ns
               end
  end.

(** Interpolate, interpolate.go:36-66. *)
Definition interpolate (getenv : str -> str) (vars : gmap str str) (input : str) : res ierr str :=
  let r1 := replace_all esc_brace placeholder input in
  let toks := scan match_ref 0 r1 in
  let r2 := render (subst_ref getenv vars) toks in
  let r3 := replace_all placeholder open_brace r2 in
  match ref_errs getenv vars (matches toks) with
  | e :: _ => Err e
  | [] => Ok r3
  end.

(** ExtractVarRefs, interpolate.go:197-206; also the references used by
    ResolveVarsWithLocation:147. *)
Definition extract_refs (raw : str) : list str := matches (scan match_ref 0 raw).

(** ContainsVarRef, interpolate.go:193-195. *)
Definition contains_ref (raw : str) : bool :=
  match extract_refs raw with [] => false | _ :: _ => true end.

(** ** ResolveVarsWithLocation, interpolate.go:95-191 *)

(** The mutable variables captured by the closure [resolveOne]
    (interpolate.go:103-110). [resolving] is always the set of names on
    [resolvingStack]; both are kept, as in the code. *)
Record rstate := RState {
  rs_resolved : gmap str str;
  rs_resolving : gset str;
  rs_resolvedSet : gset str;
  rs_stack : list str;       (* oldest first *)
}.

Section Resolve.
  Context (getenv : str -> str) (vars parent : gmap str str).

  (** The loop over the references of one variable (interpolate.go:148-167);
      [rec] is [resolveOne]. *)
  Fixpoint resolve_refs (rec : str -> rstate -> res ierr (str * rstate))
      (refs : list str) (st : rstate) : res ierr rstate :=
    match refs with
    | [] => Ok st
    | r :: rs =>
        if has_prefix env_prefix r then resolve_refs rec rs st
        else match vars !! r with
             | None => resolve_refs rec rs st
             | Some _ =>
                 match rec r st with
                 | Err e => Err e
                 | Ok (v, st') =>
                     resolve_refs rec rs
                       (RState (<[r := v]> (rs_resolved st')) (rs_resolving st')
                               ({[r]} ∪ rs_resolvedSet st') (rs_stack st'))
                 end
             end
    end.

  (** resolveOne, interpolate.go:126-182. The recursion depth is bounded by
      [fuel]; running out is the separate error [EFuel]. *)
  Fixpoint resolve_one (fuel : nat) (name : str) (st : rstate) : res ierr (str * rstate) :=
    match fuel with
    | O => Err EFuel
    | S fuel' =>
        if bool_decide (name ∈ rs_resolvedSet st) then
          Ok (default [] (rs_resolved st !! name), st)
        else if bool_decide (name ∈ rs_resolving st) then
          Err (EVarCycle (rs_stack st ++ [name]))
        else
          match vars !! name with
          | None =>
              match parent !! name with
              | Some v => Ok (v, st)
              | None => Err (EVarNotFound name)
              end
          | Some raw =>
              let st1 := RState (rs_resolved st) ({[name]} ∪ rs_resolving st)
                                (rs_resolvedSet st) (rs_stack st ++ [name]) in
              match resolve_refs (resolve_one fuel') (extract_refs raw) st1 with
              | Err e => Err e
              | Ok st2 =>
                  match interpolate getenv (rs_resolved st2) raw with
                  | Err e => Err e
                  | Ok value =>
                      Ok (value,
                          RState (<[name := value]> (rs_resolved st2))
                                 (rs_resolving st2 ∖ {[name]})
                                 ({[name]} ∪ rs_resolvedSet st2)
                                 (take (length (rs_stack st2) - 1) (rs_stack st2)))
                  end
              end
          end
    end.

  (** The final loop [for name := range vars] (interpolate.go:184-188), over the
      iteration order [order]. *)
  Fixpoint resolve_all (fuel : nat) (order : list str) (st : rstate) : res ierr rstate :=
    match order with
    | [] => Ok st
    | n :: ns => match resolve_one fuel n st with
                 | Err e => Err e
                 | Ok (_, st') => resolve_all fuel ns st'
                 end
    end.

  (** The part of ResolveVarsWithLocation for non-nil [vars]. *)
  Definition resolve_vars_in (order : list str) : res ierr (gmap str str) :=
    match resolve_all (S (size vars)) order (RState parent ∅ ∅ []) with
    | Ok st => Ok (rs_resolved st)
    | Err e => Err e
    end.
End Resolve.

(** ResolveVarsWithLocation, interpolate.go:95-191, including the nil cases
    ([None] is a nil map). [order] is the iteration order of [vars]. *)
Definition resolve_vars (getenv : str -> str) (vars parent : option (gmap str str))
    (order : list str) : res ierr (gmap str str) :=
  match vars with
  | None => Ok (default ∅ parent)
  | Some v => resolve_vars_in getenv v (default ∅ parent) order
  end.
