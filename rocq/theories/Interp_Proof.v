(** Proofs about interpolation: the three-pass code equals the one-pass
    specification. *)
From Verif Require Import Base Interp_Model Interp_Spec.

Local Arguments lit : simpl never.

(** ** Character classes *)

Lemma is_ws_spec c : is_ws c = true <-> spec_ws c.
Proof.
  unfold spec_ws. destruct c as [[] [] [] [] [] [] [] []]; vm_compute; split;
    intros H; try discriminate; try reflexivity;
    try (repeat (destruct H as [H|H]; try discriminate H); discriminate H);
    first [left; reflexivity | right; left; reflexivity | right; right; left; reflexivity
          | right; right; right; left; reflexivity | right; right; right; right; reflexivity].
Qed.

Lemma code_eq c d : code c = code d -> c = d.
Proof. unfold code. intros H. rewrite <- (ascii_nat_embedding c), <- (ascii_nat_embedding d), H. reflexivity. Qed.

Lemma is_name_start_spec c : is_name_start c = true <-> spec_start c.
Proof.
  unfold is_name_start, spec_start, between, code.
  rewrite !orb_true_iff, !andb_true_iff, !Nat.leb_le, Nat.eqb_eq.
  assert (nat_of_ascii c = 95 <-> c = "_"%char) as ->.
  { split; [intros H; apply code_eq; exact H | intros ->; reflexivity]. }
  tauto.
Qed.

Lemma is_name_char_spec c : is_name_char c = true <-> spec_namechar c.
Proof.
  unfold is_name_char, spec_namechar.
  rewrite !orb_true_iff, is_name_start_spec. unfold between, code.
  rewrite andb_true_iff, !Nat.leb_le, Nat.eqb_eq.
  assert (nat_of_ascii c = 46 <-> c = "."%char) as ->.
  { split; [intros H; apply code_eq; exact H | intros ->; reflexivity]. }
  tauto.
Qed.

Lemma Forall_ws w : Forall (fun c => is_ws c = true) w <-> Forall spec_ws w.
Proof. split; intros H; (eapply Forall_impl; [exact H|]); intros c; apply is_ws_spec. Qed.
Lemma Forall_nc w : Forall (fun c => is_name_char c = true) w <-> Forall spec_namechar w.
Proof. split; intros H; (eapply Forall_impl; [exact H|]); intros c; apply is_name_char_spec. Qed.

Lemma ws_not_name c : is_ws c = true -> is_name_char c = false.
Proof. destruct c as [[] [] [] [] [] [] [] []]; vm_compute; congruence. Qed.
Lemma start_not_ws c : is_name_start c = true -> is_ws c = false.
Proof. destruct c as [[] [] [] [] [] [] [] []]; vm_compute; congruence. Qed.

(** ** The reference matcher *)

Lemma match_ref_sound s n k : match_ref s = Some (n, k) ->
  exists t r, s = t ++ r /\ ref_text t n /\ k = length t.
Proof.
  unfold match_ref. destruct (strip_prefix open_brace s) as [s1|] eqn:E1; [|discriminate].
  apply strip_prefix_Some in E1. destruct (span is_ws s1) as [w1 s2] eqn:E2.
  apply span_spec in E2 as (-> & Hw1 & _).
  destruct s2 as [|c s3]; [discriminate|].
  destruct (is_name_start c) eqn:Ec; [|discriminate].
  destruct (span is_name_char s3) as [nm s4] eqn:E3. apply span_spec in E3 as (-> & Hnm & _).
  destruct (span is_ws s4) as [w2 s5] eqn:E4. apply span_spec in E4 as (-> & Hw2 & _).
  destruct (strip_prefix close_brace s5) as [s6|] eqn:E5; [|discriminate].
  apply strip_prefix_Some in E5 as ->. intros H; injection H as <- <-.
  exists (lit "${{" ++ w1 ++ (c :: nm) ++ w2 ++ lit "}}"), s6. split; [|split].
  - rewrite E1. unfold open_brace, close_brace. rewrite <- ?app_assoc. cbn [app]. rewrite <- ?app_assoc. reflexivity.
  - constructor; [apply Forall_ws; assumption | apply is_name_start_spec; assumption
                 | apply Forall_nc; assumption | apply Forall_ws; assumption].
  - rewrite !app_length. cbn [length]. change (length (lit "${{")) with 3. change (length (lit "}}")) with 2. lia.
Qed.

Lemma match_ref_complete t n r : ref_text t n -> match_ref (t ++ r) = Some (n, length t).
Proof.
  intros H; destruct H as [w1 c nm w2 Hw1 Hc Hnm Hw2].
  apply Forall_ws in Hw1, Hw2. apply is_name_start_spec in Hc. apply Forall_nc in Hnm.
  unfold match_ref. rewrite <- app_assoc, strip_prefix_app.
  rewrite <- ?app_assoc. cbn [app]. rewrite span_app; [|assumption|apply start_not_ws; assumption].
  rewrite Hc. rewrite <- ?app_assoc. rewrite (span_app is_name_char nm); [|assumption|].
  2:{ destruct w2 as [|d w2]; [reflexivity|]. inversion Hw2; subst. apply ws_not_name; assumption. }
  rewrite (span_app is_ws w2); [|assumption|reflexivity].
  unfold close_brace. rewrite strip_prefix_app. f_equal. f_equal.
  rewrite !app_length. cbn [length]. rewrite !app_length. change (length (lit "${{")) with 3. change (length (lit "}}")) with 2. lia.
Qed.

Lemma match_ref_None s : match_ref s = None <-> ~ starts_with_ref s.
Proof.
  split.
  - intros H (t & n & r & Ht & ->). rewrite (match_ref_complete _ _ _ Ht) in H. discriminate.
  - intros H. destruct (match_ref s) as [[n k]|] eqn:E; [|reflexivity].
    apply match_ref_sound in E as (t & r & -> & Ht & _). exfalso; apply H; exists t, n, r; auto.
Qed.

Lemma ref_text_unique t n t' n' r r' : ref_text t n -> ref_text t' n' -> t ++ r = t' ++ r' ->
  t = t' /\ n = n' /\ r = r'.
Proof.
  intros H H' E. pose proof (match_ref_complete _ _ r H) as E1. pose proof (match_ref_complete _ _ r' H') as E2.
  rewrite E in E1. rewrite E1 in E2. injection E2 as -> El.
  apply app_inj_1 in E as [-> ->]; [auto|lia].
Qed.

Lemma ref_text_cons t n : ref_text t n -> exists u, t = "$"%char :: "{"%char :: u /\ Forall (fun c => c <> "$"%char) u.
Proof.
  intros H; destruct H as [w1 c nm w2 Hw1 Hc Hnm Hw2].
  exists ("{"%char :: w1 ++ (c :: nm) ++ w2 ++ lit "}}"). split; [reflexivity|].
  constructor; [discriminate|].
  assert (Hws : forall d, spec_ws d -> d <> "$"%char) by (intros d [->|[->|[->|[->| ->]]]]; discriminate).
  assert (Hns : forall d, spec_namechar d -> d <> "$"%char).
  { intros d Hd ->. destruct Hd as [[Hd|[Hd|Hd]]|[Hd|Hd]]; vm_compute in Hd; try discriminate; lia. }
  rewrite !Forall_app. repeat split.
  - eapply Forall_impl; [exact Hw1|exact Hws].
  - constructor; [apply Hns; left; exact Hc | eapply Forall_impl; [exact Hnm|exact Hns]].
  - eapply Forall_impl; [exact Hw2|exact Hws].
  - repeat constructor; discriminate.
Qed.

Lemma ref_text_nul_free t n : ref_text t n -> NUL ∉ t.
Proof.
  intros H Hin; destruct H as [w1 c nm w2 Hw1 Hc Hnm Hw2].
  assert (Hws : ~ spec_ws NUL) by (intros [H|[H|[H|[H|H]]]]; discriminate).
  assert (Hns : ~ spec_namechar NUL).
  { intros Hd. destruct Hd as [[Hd|[Hd|Hd]]|[Hd|Hd]]; vm_compute in Hd; try discriminate; lia. }
  rewrite !elem_of_app in Hin. destruct Hin as [H|[H|[H|[H|H]]]].
  - revert H. apply (bool_decide_unpack (NUL ∉ lit "${{")). vm_compute. exact I.
  - rewrite Forall_forall in Hw1. exact (Hws (Hw1 _ H)).
  - rewrite elem_of_cons in H. destruct H as [<-|H]; [apply Hns; left; exact Hc|].
    rewrite Forall_forall in Hnm. exact (Hns (Hnm _ H)).
  - rewrite Forall_forall in Hw2. exact (Hws (Hw2 _ H)).
  - revert H. apply (bool_decide_unpack (NUL ∉ lit "}}")). vm_compute. exact I.
Qed.

(** ** Scanning *)

Lemma scan_skip {A} (m : str -> option (A * nat)) k s : scan m k s = scan m 0 (drop k s).
Proof.
  revert k; induction s as [|c s IH]; intros [|k]; try reflexivity.
  simpl. apply IH.
Qed.

Lemma scan_match {A} (m : str -> option (A * nat)) t s a : t <> [] -> m (t ++ s) = Some (a, length t) ->
  scan m 0 (t ++ s) = inl a :: scan m 0 s.
Proof.
  intros Ht Hm. destruct t as [|c t]; [congruence|]. cbn [app scan] in *. rewrite Hm. f_equal.
  cbn [length pred]. rewrite scan_skip, drop_app. reflexivity.
Qed.

Lemma scan_chr {A} (m : str -> option (A * nat)) c s : m (c :: s) = None -> scan m 0 (c :: s) = inr c :: scan m 0 s.
Proof. intros Hm. cbn [scan]. rewrite Hm. reflexivity. Qed.

Lemma replace_all_match p r s : p <> [] -> replace_all p r (p ++ s) = r ++ replace_all p r s.
Proof.
  intros Hp. unfold replace_all. rewrite (scan_match (match_lit p) p s tt Hp); [reflexivity|].
  unfold match_lit. rewrite strip_prefix_app. reflexivity.
Qed.

Lemma replace_all_chr p r c s : (forall s', c :: s <> p ++ s') -> replace_all p r (c :: s) = c :: replace_all p r s.
Proof.
  intros Hp. unfold replace_all. rewrite scan_chr; [reflexivity|].
  unfold match_lit. rewrite (proj2 (strip_prefix_None _ _) Hp). reflexivity.
Qed.

(** Text that does not contain the first byte of the pattern is copied. *)
Lemma replace_all_skip p0 p r u s : p0 ∉ u -> replace_all (p0 :: p) r (u ++ s) = u ++ replace_all (p0 :: p) r s.
Proof.
  induction u as [|c u IH]; intros Hu; [reflexivity|].
  rewrite not_elem_of_cons in Hu. destruct Hu as [Hc Hu]. cbn [app].
  rewrite replace_all_chr; [f_equal; apply IH; exact Hu|]. intros s' E. injection E as E _. congruence.
Qed.

Lemma replace_esc_ref t n s : ref_text t n ->
  replace_all esc_brace placeholder (t ++ s) = t ++ replace_all esc_brace placeholder s.
Proof.
  intros Ht. destruct (ref_text_cons _ _ Ht) as (u & -> & Hu). cbn [app].
  rewrite replace_all_chr by (intros s' E; discriminate E). f_equal.
  change ("{"%char :: u ++ s) with (("{"%char :: u) ++ s).
  change esc_brace with ("$"%char :: lit "${{"). rewrite (replace_all_skip "$"%char); [reflexivity|].
  rewrite not_elem_of_cons. split; [discriminate|]. intros Hin. rewrite Forall_forall in Hu. exact (Hu _ Hin eq_refl).
Qed.

(** After the escape pass, NUL-free prefixes come from the original text. *)
Lemma replace_esc_prefix u : NUL ∉ u -> forall s r, replace_all esc_brace placeholder s = u ++ r -> exists r', s = u ++ r'.
Proof.
  induction u as [|c u IH]; intros Hu s r E; [exists s; reflexivity|].
  rewrite not_elem_of_cons in Hu. destruct Hu as [Hc Hu].
  destruct (strip_prefix esc_brace s) as [s'|] eqn:Es.
  - apply strip_prefix_Some in Es as ->. rewrite replace_all_match in E by discriminate.
    exfalso. injection E as E _. exact (Hc E).
  - destruct s as [|d s]; [discriminate E|].
    rewrite replace_all_chr in E by (apply strip_prefix_None; exact Es).
    injection E as -> E. destruct (IH Hu _ _ E) as [r' ->]. exists r'. reflexivity.
Qed.

(** ** Reading *)

Lemma starts_with_escape_dec s : {starts_with_escape s} + {~ starts_with_escape s}.
Proof.
  destruct (strip_prefix (lit "$${{") s) as [r|] eqn:E.
  - left. exists r. apply strip_prefix_Some; exact E.
  - right. intros [r Hr]. rewrite strip_prefix_None in E. exact (E r Hr).
Qed.

Lemma reads_total s : exists ps, reads s ps.
Proof.
  remember (length s) as n eqn:Hn. revert s Hn. induction (lt_wf n) as [n _ IH]; intros s Hn.
  destruct s as [|c s]; [exists []; constructor|].
  destruct (starts_with_escape_dec (c :: s)) as [[r Hr]|Hne].
  - rewrite Hr in *. destruct (IH (length r)) with (s := r) as [ps Hps]; [rewrite Hn, app_length; change (length (lit "$${{")) with 4; lia|reflexivity|].
    exists (PEsc :: ps). constructor; exact Hps.
  - destruct (match_ref (c :: s)) as [[nm k]|] eqn:Em.
    + apply match_ref_sound in Em as (t & r & Hr & Ht & _). rewrite Hr in *.
      destruct (IH (length r)) with (s := r) as [ps Hps]; [|reflexivity|].
      * rewrite Hn, app_length. destruct (ref_text_cons _ _ Ht) as (u & -> & _). cbn [length]. lia.
      * exists (PRef nm :: ps). constructor; assumption.
    + apply match_ref_None in Em. destruct (IH (length s)) with (s := s) as [ps Hps]; [rewrite Hn; cbn [length]; lia|reflexivity|].
      exists (PChr c :: ps). constructor; assumption.
Qed.

Lemma escape_not_ref s : starts_with_escape s -> ~ starts_with_ref s.
Proof.
  intros [r ->] (t & n & r' & Ht & E). destruct (ref_text_cons _ _ Ht) as (u & -> & _). discriminate E.
Qed.

Lemma reads_cases s ps : reads s ps ->
  (s = [] /\ ps = []) \/
  (exists r ps', s = lit "$${{" ++ r /\ ps = PEsc :: ps' /\ reads r ps') \/
  (exists t n r ps', s = t ++ r /\ ref_text t n /\ ps = PRef n :: ps' /\ reads r ps') \/
  (exists c r ps', s = c :: r /\ ~ starts_with_escape s /\ ~ starts_with_ref s /\ ps = PChr c :: ps' /\ reads r ps').
Proof. intros H; destruct H; [left|right; left|right; right; left|right; right; right]; repeat eexists; eauto. Qed.

Lemma reads_fun s ps ps' : reads s ps -> reads s ps' -> ps = ps'.
Proof.
  intros H; revert ps'; induction H as [|s ps Hs IH|t n s ps Ht Hs IH|c s ps He Hr Hs IH]; intros ps' H';
    apply reads_cases in H' as [[E ->]|[(r & q & E & -> & Hq)|[(t' & n' & r & q & E & Ht' & -> & Hq)|(c' & r & q & E & He' & Hr' & -> & Hq)]]].
  - reflexivity.
  - discriminate E.
  - destruct (ref_text_cons _ _ Ht') as (u & -> & _). discriminate E.
  - discriminate E.
  - discriminate E.
  - apply app_inv_head in E as ->. f_equal. auto.
  - exfalso. eapply escape_not_ref; [eexists; reflexivity|]. exists t', n', r. split; [exact Ht'|exact E].
  - exfalso. apply He'. exists s. reflexivity.
  - destruct (ref_text_cons _ _ Ht) as (u & -> & _). discriminate E.
  - exfalso. eapply escape_not_ref; [exists r; reflexivity|]. exists t, n, s. split; [exact Ht|symmetry; exact E].
  - destruct (ref_text_unique _ _ _ _ _ _ Ht Ht' E) as (-> & -> & ->). f_equal. auto.
  - exfalso. apply Hr'. exists t, n, s. split; [exact Ht|reflexivity].
  - discriminate E.
  - exfalso. apply He. exists r. exact E.
  - exfalso. apply Hr. exists t', n', r. split; [exact Ht'|exact E].
  - injection E as <- <-. f_equal. auto.
Qed.

(** ** The three passes *)

(** The tokens the second pass sees, for a template read as [ps]. *)
Fixpoint toks_of (ps : list piece) : list (str + ascii) :=
  match ps with
  | [] => []
  | PEsc :: ps' => map inr placeholder ++ toks_of ps'
  | PRef n :: ps' => inl n :: toks_of ps'
  | PChr c :: ps' => inr c :: toks_of ps'
  end.

Lemma scan_ref_no_dollar u s : "$"%char ∉ u -> scan match_ref 0 (u ++ s) = map inr u ++ scan match_ref 0 s.
Proof.
  induction u as [|c u IH]; intros Hu; [reflexivity|].
  rewrite not_elem_of_cons in Hu. destruct Hu as [Hc Hu]. cbn [app].
  rewrite scan_chr; [cbn [map app]; f_equal; apply IH; exact Hu|].
  apply match_ref_None. intros (t & n & r & Ht & E).
  destruct (ref_text_cons _ _ Ht) as (v & -> & _). injection E as E _. congruence.
Qed.

Lemma passes12 s ps : reads s ps -> scan match_ref 0 (replace_all esc_brace placeholder s) = toks_of ps.
Proof.
  intros H; induction H as [|s ps Hs IH|t n s ps Ht Hs IH|c s ps He Hr Hs IH].
  - reflexivity.
  - change (lit "$${{") with esc_brace. rewrite replace_all_match by discriminate.
    rewrite scan_ref_no_dollar; [cbn [toks_of]; f_equal; exact IH|].
    apply (bool_decide_unpack _). vm_compute. exact I.
  - rewrite (replace_esc_ref _ _ _ Ht).
    rewrite (scan_match match_ref t _ n); [cbn [toks_of]; f_equal; exact IH| |apply match_ref_complete; exact Ht].
    destruct (ref_text_cons _ _ Ht) as (u & -> & _). discriminate.
  - rewrite replace_all_chr by (intros s' E; apply He; exists s'; exact E).
    rewrite scan_chr; [cbn [toks_of]; f_equal; exact IH|].
    apply match_ref_None. intros (t & n & r & Ht & E). apply Hr.
    destruct (ref_text_cons _ _ Ht) as (u & -> & Hu). injection E as -> E.
    pose proof (ref_text_nul_free _ _ Ht) as Hn. rewrite not_elem_of_cons in Hn. destruct Hn as [_ Hn].
    destruct (replace_esc_prefix _ Hn _ _ E) as [r' ->].
    exists ("$"%char :: "{"%char :: u), n, r'. split; [exact Ht|reflexivity].
Qed.

Lemma matches_app {A} (l l' : list (A + ascii)) : matches (l ++ l') = matches l ++ matches l'.
Proof. induction l as [|[a|c] l IH]; simpl; [reflexivity| |]; rewrite ?IH; reflexivity. Qed.
Lemma matches_inr {A} (u : str) : matches (A:=A) (map inr u) = [].
Proof. induction u; simpl; auto. Qed.
Lemma render_app {A} f (l l' : list (A + ascii)) : render f (l ++ l') = render f l ++ render f l'.
Proof. induction l as [|[a|c] l IH]; simpl; rewrite ?IH, ?app_assoc; reflexivity. Qed.
Lemma render_inr {A} f (u : str) : render (A:=A) f (map inr u) = u.
Proof. induction u; simpl; f_equal; auto. Qed.

Lemma matches_toks_of ps : matches (toks_of ps) = refs_of ps.
Proof.
  induction ps as [|[|n|c] ps IH]; cbn [toks_of refs_of matches]; [reflexivity| |f_equal; exact IH|exact IH].
  rewrite matches_app, matches_inr. exact IH.
Qed.

Lemma means_cases getenv look n v : means getenv look n v ->
  (exists x, n = lit "env." ++ x /\ v = getenv x) \/ ((forall x, n <> lit "env." ++ x) /\ look n v).
Proof. intros H; destruct H; [left; eauto|right; auto]. Qed.

Section Interp.
  Context (getenv : str -> str) (vars : gmap str str).

  Lemma resolve_var_Ok n v : resolve_var getenv vars n = Ok v <-> means getenv (in_map vars) n v.
  Proof.
    unfold resolve_var. destruct (strip_prefix env_prefix n) as [x|] eqn:E.
    - apply strip_prefix_Some in E as ->. split.
      + intros H; injection H as <-. constructor.
      + intros H; apply means_cases in H as [(y & Ey & ->)|[Hn _]].
        * apply app_inv_head in Ey as ->. reflexivity.
        * exfalso; exact (Hn x eq_refl).
    - rewrite strip_prefix_None in E. split.
      + destruct (vars !! n) as [w|] eqn:Ew; [|discriminate]. intros H; injection H as <-. constructor; assumption.
      + intros H; apply means_cases in H as [(y & Ey & ->)|[_ Hl]].
        * exfalso. exact (E y Ey).
        * unfold in_map in Hl. rewrite Hl. reflexivity.
  Qed.

  Lemma resolve_var_Err n e : resolve_var getenv vars n = Err e <-> undefined_ref vars n /\ e = EVarNotFound n.
  Proof.
    unfold resolve_var, undefined_ref. destruct (strip_prefix env_prefix n) as [x|] eqn:E.
    - apply strip_prefix_Some in E as ->. split; [discriminate|]. intros [[H _] _]. exfalso; exact (H x eq_refl).
    - rewrite strip_prefix_None in E. destruct (vars !! n) as [w|] eqn:Ew.
      + split; [discriminate|]. intros [[_ H] _]; discriminate.
      + split; [intros H; injection H as <-; auto|]. intros [_ ->]; reflexivity.
  Qed.

  Lemma ref_errs_nil ns : ref_errs getenv vars ns = [] <-> forall n, n ∈ ns -> exists v, means getenv (in_map vars) n v.
  Proof.
    induction ns as [|n ns IH]; simpl; [split; [intros _ n H; inversion H|reflexivity]|].
    destruct (resolve_var getenv vars n) as [v|e] eqn:E.
    - rewrite IH. apply resolve_var_Ok in E. split.
      + intros H m Hm. rewrite elem_of_cons in Hm. destruct Hm as [->|Hm]; eauto.
      + intros H m Hm. apply H. rewrite elem_of_cons; auto.
    - split; [discriminate|]. intros H. destruct (H n) as [v Hv]; [rewrite elem_of_cons; auto|].
      apply resolve_var_Ok in Hv. congruence.
  Qed.

  Lemma ref_errs_cons ns e : head (ref_errs getenv vars ns) = Some e <->
    exists pre n post, ns = pre ++ n :: post /\ undefined_ref vars n /\ e = EVarNotFound n /\
      forall m, m ∈ pre -> ~ undefined_ref vars m.
  Proof.
    induction ns as [|n ns IH]; simpl.
    - split; [discriminate|]. intros (pre & n & post & E & _). destruct pre; discriminate.
    - destruct (resolve_var getenv vars n) as [v|e'] eqn:E.
      + rewrite IH. assert (Hd : ~ undefined_ref vars n).
        { intros Hu. assert (resolve_var getenv vars n = Err (EVarNotFound n)) by (apply resolve_var_Err; auto). congruence. }
        split.
        * intros (pre & m & post & -> & Hu & -> & Hpre). exists (n :: pre), m, post. split; [reflexivity|].
          split; [exact Hu|]. split; [reflexivity|]. intros x Hx. rewrite elem_of_cons in Hx. destruct Hx as [->|Hx]; auto.
        * intros (pre & m & post & Eq & Hu & -> & Hpre). destruct pre as [|p pre].
          -- injection Eq as -> ->. contradiction.
          -- injection Eq as -> ->. exists pre, m, post. split; [reflexivity|]. split; [exact Hu|]. split; [reflexivity|].
             intros x Hx. apply Hpre. rewrite elem_of_cons; auto.
      + apply resolve_var_Err in E as [Hu ->]. simpl. split.
        * intros H; injection H as <-. exists [], n, ns. split; [reflexivity|]. split; [exact Hu|]. split; [reflexivity|].
          intros m Hm; inversion Hm.
        * intros (pre & m & post & Eq & Hum & -> & Hpre). destruct pre as [|p pre].
          -- injection Eq as -> ->. reflexivity.
          -- injection Eq as -> ->. exfalso. apply (Hpre p); [rewrite elem_of_cons; auto|exact Hu].
  Qed.

  (** Defined or undefined. *)
  Lemma means_or_undefined n : (exists v, means getenv (in_map vars) n v) \/ undefined_ref vars n.
  Proof.
    destruct (resolve_var getenv vars n) as [v|e] eqn:E; [left; exists v; apply resolve_var_Ok; exact E|].
    right. apply resolve_var_Err in E as [Hu _]. exact Hu.
  Qed.

  Lemma means_fun n v v' : means getenv (in_map vars) n v -> means getenv (in_map vars) n v' -> v = v'.
  Proof. rewrite <- !resolve_var_Ok. congruence. Qed.

  Lemma expands_fun ps o o' : expands getenv (in_map vars) ps o -> expands getenv (in_map vars) ps o' -> o = o'.
  Proof.
    intros H; revert o'; induction H as [|ps o H IH|n v ps o Hm H IH|c ps o H IH]; intros o' H'; inversion H'; subst.
    - reflexivity.
    - f_equal; auto.
    - f_equal; [eapply means_fun; eassumption|auto].
    - f_equal; auto.
  Qed.

  Lemma expands_exists ps : (forall n, n ∈ refs_of ps -> exists v, means getenv (in_map vars) n v) ->
    exists o, expands getenv (in_map vars) ps o.
  Proof.
    induction ps as [|[|n|c] ps IH]; intros H.
    - exists []; constructor.
    - destruct (IH H) as [o Ho]. eexists; constructor; exact Ho.
    - destruct (H n) as [v Hv]; [cbn [refs_of]; rewrite elem_of_cons; auto|].
      destruct IH as [o Ho]; [intros m Hm; apply H; cbn [refs_of]; rewrite elem_of_cons; auto|].
      eexists; econstructor; eassumption.
    - destruct (IH H) as [o Ho]. eexists; constructor; exact Ho.
  Qed.

  Lemma expands_defined look ps o : expands getenv look ps o -> forall n, n ∈ refs_of ps -> exists v, means getenv look n v.
  Proof.
    intros H; induction H as [|ps o H IH|n v ps o Hm H IH|c ps o H IH]; cbn [refs_of]; intros m Hin; auto.
    - inversion Hin.
    - rewrite elem_of_cons in Hin. destruct Hin as [->|Hin]; eauto.
  Qed.

  Hypothesis Hgetenv : forall x, nul_free (getenv x).
  Hypothesis Hvars : forall n v, vars !! n = Some v -> nul_free v.

  Lemma means_nul_free n v : means getenv (in_map vars) n v -> nul_free v.
  Proof. intros H; destruct H as [x|n v _ H]; [apply Hgetenv|eapply Hvars; exact H]. Qed.

  Lemma pass3 s ps : reads s ps -> nul_free s -> forall o, expands getenv (in_map vars) ps o ->
    replace_all placeholder open_brace (render (subst_ref getenv vars) (toks_of ps)) = o.
  Proof.
    intros H; induction H as [|s ps Hs IH|t n s ps Ht Hs IH|c s ps He Hr Hs IH]; intros Hnul o Ho; inversion Ho; subst.
    - reflexivity.
    - cbn [toks_of]. rewrite render_app, render_inr. rewrite replace_all_match by discriminate.
      change (lit "${{") with open_brace. f_equal. apply IH; [|assumption].
      unfold nul_free in *. rewrite elem_of_app in Hnul. tauto.
    - cbn [toks_of render]. unfold subst_ref at 1.
      match goal with Hm : means _ _ n _ |- _ => pose proof (proj2 (resolve_var_Ok _ _) Hm) as E; pose proof (means_nul_free _ _ Hm) as Hv end.
      rewrite E. unfold placeholder. rewrite (replace_all_skip NUL); [|exact Hv].
      f_equal. apply IH; [|assumption]. unfold nul_free in *. rewrite elem_of_app in Hnul. tauto.
    - cbn [toks_of render]. unfold nul_free in Hnul. rewrite not_elem_of_cons in Hnul. destruct Hnul as [Hc Hnul].
      rewrite replace_all_chr; [f_equal; apply IH; assumption|].
      intros s' E. injection E as E _. exact (Hc (eq_sym E)).
  Qed.

  Lemma interpolate_Ok s : nul_free s -> forall o,
    interpolate getenv vars s = Ok o <-> template_value getenv (in_map vars) s o.
  Proof.
    intros Hnul o. destruct (reads_total s) as [ps Hps]. unfold interpolate.
    rewrite (passes12 _ _ Hps), matches_toks_of. split.
    - destruct (ref_errs getenv vars (refs_of ps)) as [|e es] eqn:E; [|discriminate].
      intros H; injection H as <-. exists ps. split; [exact Hps|].
      destruct (expands_exists ps) as [o' Ho']; [apply ref_errs_nil; exact E|].
      rewrite (pass3 _ _ Hps Hnul _ Ho'). exact Ho'.
    - intros (ps' & Hps' & Ho). rewrite <- (reads_fun _ _ _ Hps Hps') in Ho.
      rewrite (proj2 (ref_errs_nil _) (expands_defined _ _ _ Ho)). f_equal. apply (pass3 _ _ Hps Hnul _ Ho).
  Qed.

  Lemma template_value_nul_free s o : nul_free s -> template_value getenv (in_map vars) s o -> nul_free o.
  Proof.
    intros Hnul (ps & Hps & Ho). revert o Ho Hnul.
    induction Hps as [|s ps Hs IH|t n s ps Ht Hs IH|c s ps He Hr Hs IH]; intros o Ho Hnul; inversion Ho; subst.
    - intros H; inversion H.
    - unfold nul_free in *. rewrite elem_of_app. rewrite elem_of_app in Hnul.
      intros [H|H]; [revert H; apply (bool_decide_unpack _); vm_compute; exact I|]. eapply IH; eauto.
    - unfold nul_free in *. rewrite elem_of_app in Hnul. rewrite elem_of_app.
      intros [H|H]; [|eapply IH; eauto].
      match goal with Hm : means _ _ n _ |- _ => exact (means_nul_free _ _ Hm H) end.
    - unfold nul_free in *. rewrite not_elem_of_cons in *. destruct Hnul; split; [assumption|]. eapply IH; eauto.
  Qed.
End Interp.

Lemma interpolate_Err getenv vars s e :
  interpolate getenv vars s = Err e <->
  exists ps pre n post, reads s ps /\ refs_of ps = pre ++ n :: post /\ undefined_ref vars n /\
    (forall m, m ∈ pre -> ~ undefined_ref vars m) /\ e = EVarNotFound n.
Proof.
  destruct (reads_total s) as [ps Hps]. unfold interpolate. rewrite (passes12 _ _ Hps), matches_toks_of.
  pose proof (ref_errs_cons getenv vars (refs_of ps) e) as Hc.
  split.
  - destruct (ref_errs getenv vars (refs_of ps)) as [|e' es]; [discriminate|].
    intros H; injection H as ->. destruct (proj1 Hc eq_refl) as (pre & n & post & E & Hu & -> & Hpre).
    exists ps, pre, n, post. auto.
  - intros (ps' & pre & n & post & Hps' & E & Hu & Hpre & ->). rewrite <- (reads_fun _ _ _ Hps Hps') in E.
    destruct (ref_errs getenv vars (refs_of ps)) as [|e' es].
    + assert (Hh : head (@nil ierr) = Some (EVarNotFound n)) by (apply Hc; exists pre, n, post; auto).
      discriminate Hh.
    + assert (Hh : head (e' :: es) = Some (EVarNotFound n)) by (apply Hc; exists pre, n, post; auto).
      simpl in Hh. congruence.
Qed.

(** ** References found in a raw template *)

Lemma scan_matches_elem s n : n ∈ extract_refs s <-> exists a t b, s = a ++ t ++ b /\ ref_text t n.
Proof.
  unfold extract_refs. remember (length s) as k eqn:Hk. revert s Hk.
  induction (lt_wf k) as [k _ IH]; intros s Hk.
  destruct s as [|c s].
  - split; [intros H; inversion H|]. intros (a & t & b & E & Ht). destruct (ref_text_cons _ _ Ht) as (u & -> & _). destruct a; discriminate.
  - destruct (match_ref (c :: s)) as [[nm j]|] eqn:Em.
    + apply match_ref_sound in Em as (t & r & Hr & Ht & _). rewrite Hr in *.
      destruct (ref_text_cons _ _ Ht) as (u & Hu & Hdu).
      rewrite (scan_match match_ref t r nm); [|rewrite Hu; discriminate|apply match_ref_complete; exact Ht].
      cbn [matches]. rewrite elem_of_cons, (IH (length r)) by (subst; rewrite ?app_length; simpl; lia || reflexivity).
      split.
      * intros [->|(a & t' & b & -> & Ht')]; [exists [], t, r; auto|].
        exists (t ++ a), t', b. rewrite <- app_assoc. auto.
      * intros (a & t' & b & E & Ht'). destruct a as [|d a].
        -- destruct (ref_text_unique _ _ _ _ _ _ Ht Ht' E) as (_ & -> & _). auto.
        -- right. destruct (ref_text_cons _ _ Ht') as (u' & Hu' & Hdu').
           (* the second occurrence cannot start inside [t]: its first byte is a dollar *)
           rewrite Hu in E. injection E as <- E. change ("{"%char :: u ++ r) with (("{"%char :: u) ++ r) in E.
           assert (Hnd : "$"%char ∉ "{"%char :: u).
           { rewrite not_elem_of_cons. split; [discriminate|]. intros Hin. rewrite Forall_forall in Hdu. exact (Hdu _ Hin eq_refl). }
           revert E. generalize ("{"%char :: u) Hnd. clear -Ht' Hu'. intros l Hl E.
           assert (exists a', r = a' ++ t' ++ b) as [a' ->].
           { revert a E. induction l as [|x l IHl]; intros a E; [exists a; exact E|].
             rewrite not_elem_of_cons in Hl. destruct Hl as [Hx Hl]. destruct a as [|y a].
             - rewrite Hu' in E. injection E as E _. congruence.
             - injection E as _ E. exact (IHl Hl _ E). }
           exists a', t', b. auto.
    + pose proof Em as Em'. apply match_ref_None in Em. rewrite scan_chr by exact Em'. cbn [matches].
      rewrite (IH (length s)) by (subst; simpl; lia || reflexivity). split.
      * intros (a & t & b & -> & Ht). exists (c :: a), t, b. auto.
      * intros (a & t & b & E & Ht). destruct a as [|d a].
        -- exfalso. apply Em. exists t, n, b. auto.
        -- injection E as <- ->. exists a, t, b. auto.
Qed.

Lemma reads_refs_extract s ps : reads s ps -> forall n, n ∈ refs_of ps -> n ∈ extract_refs s.
Proof.
  intros H n Hn. apply scan_matches_elem. revert Hn.
  induction H as [|s ps Hs IH|t m s ps Ht Hs IH|c s ps He Hr Hs IH]; cbn [refs_of]; intros Hn.
  - inversion Hn.
  - destruct (IH Hn) as (a & t & b & -> & Ht). exists (lit "$${{" ++ a), t, b. rewrite <- app_assoc. auto.
  - rewrite elem_of_cons in Hn. destruct Hn as [->|Hn]; [exists [], t, s; auto|].
    destruct (IH Hn) as (a & t' & b & -> & Ht'). exists (t ++ a), t', b. rewrite <- app_assoc. auto.
  - destruct (IH Hn) as (a & t & b & -> & Ht). exists (c :: a), t, b. auto.
Qed.
