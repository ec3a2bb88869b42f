(** Shared vocabulary: byte strings, results, prefix tests.

    A Go [string] is an immutable byte sequence; we use [list ascii] (8-bit
    characters), with no bound on the length. *)
From Coq Require Export Ascii String.
From stdpp Require Export base list gmap fin_maps fin_sets numbers strings sorting.
Open Scope list_scope.
Open Scope nat_scope.

Notation str := (list ascii).

(** Literals. *)
Definition lit (x : string) : str := list_ascii_of_string x.

(** The byte with a given code. *)
Definition chr (n : nat) : ascii := ascii_of_nat n.
Definition code (c : ascii) : nat := nat_of_ascii c.

(** Go's [(value, error)] results: an error excludes the value. *)
Inductive res (E A : Type) : Type :=
| Ok (a : A)
| Err (e : E).
Arguments Ok {E A} a.
Arguments Err {E A} e.

Definition is_ok {E A} (r : res E A) : Prop := match r with Ok _ => True | Err _ => False end.

Definition rbind {E A B} (r : res E A) (f : A -> res E B) : res E B :=
  match r with Ok a => f a | Err e => Err e end.

(** [strip_prefix p s]: Go's [strings.HasPrefix]/[strings.TrimPrefix] in one
    function: [Some rest] iff [s = p ++ rest]. *)
Fixpoint strip_prefix (p s : str) : option str :=
  match p, s with
  | [], _ => Some s
  | c :: p', d :: s' => if decide (c = d) then strip_prefix p' s' else None
  | _ :: _, [] => None
  end.

Definition has_prefix (p s : str) : bool := match strip_prefix p s with Some _ => true | None => false end.

Lemma strip_prefix_Some p s r : strip_prefix p s = Some r <-> s = p ++ r.
Proof.
  revert s; induction p as [|c p IH]; intros s; simpl.
  - split; congruence.
  - destruct s as [|d s]; [split; [discriminate|intros H; discriminate]|].
    destruct (decide (c = d)) as [->|Hne].
    + rewrite IH. split; [intros ->; reflexivity | intros H; injection H as H; exact H].
    + split; [discriminate | intros H; injection H as H1 H2; congruence].
Qed.

Lemma strip_prefix_app p s : strip_prefix p (p ++ s) = Some s.
Proof. apply strip_prefix_Some; reflexivity. Qed.

Lemma strip_prefix_None p s : strip_prefix p s = None <-> forall r, s <> p ++ r.
Proof.
  split.
  - intros H r Hs. apply strip_prefix_Some in Hs. congruence.
  - intros H. destruct (strip_prefix p s) as [r|] eqn:E; [|reflexivity].
    apply strip_prefix_Some in E. exfalso; exact (H r E).
Qed.

Lemma has_prefix_true p s : has_prefix p s = true <-> exists r, s = p ++ r.
Proof.
  unfold has_prefix. destruct (strip_prefix p s) as [r|] eqn:E.
  - apply strip_prefix_Some in E. split; [intros _; exists r; exact E | reflexivity].
  - split; [discriminate|]. intros [r Hr]. rewrite strip_prefix_None in E. exfalso; exact (E r Hr).
Qed.

Lemma has_prefix_false p s : has_prefix p s = false <-> forall r, s <> p ++ r.
Proof.
  unfold has_prefix. destruct (strip_prefix p s) as [r|] eqn:E.
  - apply strip_prefix_Some in E. split; [discriminate|]. intros H; exfalso; exact (H r E).
  - rewrite strip_prefix_None in E. split; [intros _; exact E | reflexivity].
Qed.

(** [span f s]: the longest prefix whose characters satisfy [f], and the rest. *)
Fixpoint span (f : ascii -> bool) (s : str) : str * str :=
  match s with
  | [] => ([], [])
  | c :: s' => if f c then let '(a, b) := span f s' in (c :: a, b) else ([], s)
  end.

Lemma span_spec f s a b : span f s = (a, b) ->
  s = a ++ b /\ Forall (fun c => f c = true) a /\
  match b with [] => True | c :: _ => f c = false end.
Proof.
  revert a b; induction s as [|c s IH]; intros a b; simpl.
  - intros H; injection H as <- <-. repeat split; constructor.
  - destruct (f c) eqn:Ef.
    + destruct (span f s) as [a' b'] eqn:E. intros H; injection H as <- <-.
      destruct (IH a' b' eq_refl) as (-> & Ha & Hb). repeat split; [constructor; assumption | exact Hb].
    + intros H; injection H as <- <-. repeat split; [constructor | exact Ef].
Qed.

Lemma span_app f a b : Forall (fun c => f c = true) a ->
  match b with [] => True | c :: _ => f c = false end -> span f (a ++ b) = (a, b).
Proof.
  induction a as [|c a IH]; intros Ha Hb; simpl.
  - destruct b as [|d b]; simpl; [reflexivity|]. rewrite Hb; reflexivity.
  - inversion Ha as [|? ? Hc Ha']; subst. rewrite Hc, (IH Ha' Hb). reflexivity.
Qed.
