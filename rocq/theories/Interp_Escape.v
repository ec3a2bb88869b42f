(** Writing any text literally: put a [$] before every [${{]. *)
From Verif Require Import Base Interp_Spec Interp_Model Interp_Proof.

Fixpoint escape (s : str) : str :=
  match s with
  | [] => []
  | c :: r => (match strip_prefix (lit "${{") s with Some _ => lit "$" | None => [] end) ++ c :: escape r
  end.

Lemma escape_open r : escape (lit "${{" ++ r) = lit "$${{" ++ escape r.
Proof. reflexivity. Qed.
Lemma escape_chr c r : strip_prefix (lit "${{") (c :: r) = None -> escape (c :: r) = c :: escape r.
Proof. intros H. change (escape (c :: r)) with ((match strip_prefix (lit "${{") (c :: r) with Some _ => lit "$" | None => [] end) ++ c :: escape r). rewrite H. reflexivity. Qed.
Lemma escape_head s c y : escape s = c :: y -> c <> "$"%char -> exists s', s = c :: s' /\ y = escape s'.
Proof.
  intros E Hc. destruct s as [|d s]; [discriminate|]. destruct (strip_prefix (lit "${{") (d :: s)) as [r|] eqn:Ep.
  - apply strip_prefix_Some in Ep. rewrite Ep, escape_open in E. injection E as <- _. congruence.
  - rewrite escape_chr in E by exact Ep. injection E as <- <-. eauto.
Qed.
Lemma escape_braces s y : escape s = lit "{{" ++ y -> exists s', s = lit "{{" ++ s'.
Proof.
  intros E. apply escape_head in E as (s1 & -> & E); [|discriminate]. symmetry in E. apply escape_head in E as (s2 & -> & _); [|discriminate]. eauto.
Qed.

Lemma reads_escape getenv w : exists ps, reads (escape w) ps /\ refs_of ps = [] /\ forall look, expands getenv look ps w.
Proof.
  remember (length w) as n eqn:Hn. assert (Hle : length w <= n) by lia. clear Hn. revert w Hle.
  induction n as [|n IH]; intros w Hle.
  { destruct w; [|simpl in Hle; lia]. exists []. split; [constructor|]. split; [reflexivity|]. constructor. }
  destruct w as [|c r]; [exists []; split; [constructor|]; split; [reflexivity|]; constructor|].
  destruct (strip_prefix (lit "${{") (c :: r)) as [r'|] eqn:Ep.
  - apply strip_prefix_Some in Ep. rewrite Ep in *. rewrite escape_open. destruct (IH r') as (ps & H1 & H2 & H3); [rewrite app_length in Hle; simpl in Hle; lia|].
    exists (PEsc :: ps). split; [constructor; exact H1|]. split; [exact H2|]. intros look. constructor. apply H3.
  - rewrite escape_chr by exact Ep. destruct (IH r) as (ps & H1 & H2 & H3); [simpl in Hle; lia|].
    assert (Hno : forall y, c = "$"%char -> escape r <> lit "{{" ++ y).
    { intros y -> E. apply escape_braces in E as (s' & ->). discriminate. }
    exists (PChr c :: ps). split; [|split; [exact H2|intros look; constructor; apply H3]]. constructor; [| |exact H1].
    + intros [y E]. injection E as -> E.
      destruct r as [|d r1]; [discriminate|]. destruct (strip_prefix (lit "${{") (d :: r1)) as [r2|] eqn:Ep2.
      * apply strip_prefix_Some in Ep2. rewrite Ep2, escape_open in E. discriminate.
      * rewrite escape_chr in E by exact Ep2. injection E as -> E. apply escape_braces in E as (s' & ->). discriminate.
    + intros (t & m & y & Ht & E). inversion Ht as [w1 b nm w2 _ _ _ _]. subst t.
      injection E as -> E. apply (Hno (w1 ++ (b :: nm) ++ w2 ++ lit "}}" ++ y) eq_refl). rewrite E. rewrite <- !app_assoc. simpl. rewrite <- !app_assoc. reflexivity.
Qed.

Lemma render_no_refs f g ps : refs_of ps = [] -> render f (toks_of ps) = render g (toks_of ps).
Proof. induction ps as [|[|n|c] ps IH]; simpl; intros H; [reflexivity| |discriminate|]; rewrite IH by exact H; reflexivity. Qed.

Lemma escape_nul_free w : nul_free w -> nul_free (escape w).
Proof.
  unfold nul_free. intros H Hin. apply H. clear H. induction w as [|c w IH]; [exact Hin|].
  destruct (strip_prefix (lit "${{") (c :: w)) as [r|] eqn:Ep.
  - pose proof Ep as Ep'. apply strip_prefix_Some in Ep'. change (escape (c :: w)) with ((match strip_prefix (lit "${{") (c :: w) with Some _ => lit "$" | None => [] end) ++ c :: escape w) in Hin.
    rewrite Ep in Hin. apply elem_of_cons in Hin as [Hin|Hin]; [discriminate|]. apply elem_of_cons in Hin as [Hin|Hin]; [rewrite Hin; left|right; auto].
  - rewrite escape_chr in Hin by exact Ep. apply elem_of_cons in Hin as [Hin|Hin]; [rewrite Hin; left|right; auto].
Qed.

(** Whatever the variables are, an escaped text stands for the text. *)
Theorem interpolate_escape getenv vars w : nul_free w -> interpolate getenv vars (escape w) = Ok w.
Proof.
  intros Hw. destruct (reads_escape (fun _ => []) w) as (ps & H1 & H2 & H3). unfold interpolate.
  rewrite (passes12 _ _ H1), matches_toks_of, H2. simpl. f_equal.
  rewrite (render_no_refs _ (subst_ref (fun _ => []) ∅)) by exact H2.
  eapply (pass3 (fun _ => []) ∅); [intros x H; inversion H|intros n v H; rewrite lookup_empty in H; discriminate|exact H1|apply escape_nul_free; exact Hw|apply H3].
Qed.
