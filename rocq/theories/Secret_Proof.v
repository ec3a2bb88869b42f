(** Runs in which a secret is another one, or one variable has another value, simulate each other. *)
From Verif Require Import Base Types_Model Path_Model Interp_Model Interp_Spec Interp_Proof Vars_Proof Cond_Model Run_Model Run_Spec Sim_Proof Secret_Spec.

(** ** Texts *)
Definition refs (s : str) : list str := matches (scan match_ref 0 (replace_all esc_brace placeholder s)).
Lemma refs_reads s ps : reads s ps -> refs s = refs_of ps.
Proof. intros H. unfold refs. rewrite (passes12 s ps H). apply matches_toks_of. Qed.

Section Uses.
  Context (V : gset str).
  Notation uses := (uses V).

  Lemma uses_refs s : uses s <-> exists n, n ∈ refs s /\ n ∈ V.
  Proof.
    split.
    - intros (ps & n & Hr & Hn & HV). exists n. rewrite (refs_reads s ps Hr). auto.
    - intros (n & Hn & HV). destruct (reads_total s) as [ps Hps]. exists ps, n. rewrite <- (refs_reads s ps Hps). auto.
  Qed.
  Lemma uses_or s : uses s \/ ~ uses s.
  Proof.
    destruct (decide (Exists (fun n => n ∈ V) (refs s))) as [H|H].
    - left. apply uses_refs. apply Exists_exists in H as (n & H1 & H2). eauto.
    - right. rewrite uses_refs. intros (n & H1 & H2). apply H. apply Exists_exists. eauto.
  Qed.
  Lemma uses_nil : ~ uses [].
  Proof. rewrite uses_refs. intros (n & H & _). inversion H. Qed.

End Uses.

Section Texts.
  Context (V U : gset str).
  Notation uses := (uses V). Notation agree := (agree V U).
  (** The text does not refer to what may be missing. *)
  Notation known s := (~ Secret_Spec.uses U s).

  Lemma agree_refl m : agree m m.
  Proof. intros x. destruct (m !! x); [right; reflexivity|exact I]. Qed.
  Lemma agree_insert m m' x v v' : agree m m' -> x ∈ V \/ v = v' -> agree (<[x := v]> m) (<[x := v']> m').
  Proof.
    intros H Hv y. destruct (decide (x = y)) as [->|Hne]; [rewrite !lookup_insert; exact Hv|].
    rewrite !lookup_insert_ne by exact Hne. apply H.
  Qed.

  Section Env.
    Context (getenv getenv' : str -> str) (Hget : forall x, getenv' x = getenv x \/ lit "env." ++ x ∈ V).
    (** Two results that agree: the same error, or values that agree unless [P]. *)
    Definition both {A} (P : Prop) (r r' : res ierr A) : Prop :=
      match r, r' with Ok a, Ok a' => P \/ a = a' | Err e, Err e' => e = e' | _, _ => False end.

    Lemma resolve_var_agree m m' n : agree m m' -> n ∉ U -> both (n ∈ V) (resolve_var getenv m n) (resolve_var getenv' m' n).
    Proof.
      intros H HU. unfold resolve_var. destruct (strip_prefix env_prefix n) as [r|] eqn:E.
      { apply strip_prefix_Some in E. destruct (Hget r) as [Hr|Hr]; [right; symmetry; exact Hr|left; rewrite E; exact Hr]. }
      specialize (H n). destruct (m !! n), (m' !! n); try contradiction (HU H); [exact H|reflexivity].
    Qed.
    Lemma ref_errs_agree m m' ns : agree m m' -> (forall n, n ∈ ns -> n ∉ U) -> ref_errs getenv m ns = ref_errs getenv' m' ns.
    Proof.
      intros H HU. induction ns as [|n ns IH]; cbn [ref_errs]; [reflexivity|]. rewrite IH by (intros n' Hn'; apply HU; right; exact Hn').
      pose proof (resolve_var_agree m m' n H (HU n (elem_of_list_here _ _))) as Hn.
      destruct (resolve_var getenv m n), (resolve_var getenv' m' n); cbn in Hn; try contradiction Hn; [reflexivity|subst; reflexivity].
    Qed.
    Lemma render_agree m m' (toks : list (str + ascii)) : agree m m' -> (forall n, n ∈ matches toks -> n ∉ V /\ n ∉ U) ->
      render (subst_ref getenv m) toks = render (subst_ref getenv' m') toks.
    Proof.
      intros H. induction toks as [|[n|c] toks IH]; cbn [render matches]; intros Hn; [reflexivity| |rewrite IH by exact Hn; reflexivity].
      rewrite IH by (intros n' Hn'; apply Hn; right; exact Hn'). f_equal. unfold subst_ref.
      assert (Hv : n ∉ V /\ n ∉ U) by (apply Hn; left). destruct Hv as [Hv HU]. pose proof (resolve_var_agree m m' n H HU) as E.
      destruct (resolve_var getenv m n), (resolve_var getenv' m' n); cbn in E; try contradiction E; [|reflexivity].
      destruct E as [E|E]; [contradiction (Hv E)|exact E].
    Qed.
    Lemma interp_agree m m' s : agree m m' -> known s -> both (uses s) (interpolate getenv m s) (interpolate getenv' m' s).
    Proof.
      intros H HU. unfold interpolate. cbv zeta.
      assert (HU' : forall n, n ∈ refs s -> n ∉ U) by (intros n Hn Hu; apply HU, uses_refs; exists n; split; assumption).
      rewrite (ref_errs_agree m m' (matches (scan match_ref 0 (replace_all esc_brace placeholder s))) H HU'). destruct (ref_errs getenv' m' _); [|reflexivity].
      destruct (uses_or V s) as [Hu|Hu]; [left; exact Hu|right]. f_equal. apply render_agree; [exact H|].
      intros n Hn. split; [intros HV|apply HU'; exact Hn]. apply Hu. apply uses_refs. exists n. split; [exact Hn|exact HV].
    Qed.
    Lemma evaluate_agree m m' s : agree m m' -> known s -> ~ uses s -> evaluate getenv m s = evaluate getenv' m' s.
    Proof.
      intros H HU Hu. unfold evaluate. destruct (decide (s = [])); [reflexivity|]. pose proof (interp_agree m m' s H HU) as E.
      destruct (interpolate getenv m s), (interpolate getenv' m' s); cbn in E; try contradiction E; [|subst; reflexivity].
      destruct E as [E|E]; [contradiction (Hu E)|subst; reflexivity].
    Qed.
    Lemma interp_list_agree m m' l : agree m m' -> (forall s, s ∈ l -> known s) ->
      both (exists s, s ∈ l /\ uses s) (interpolate_list getenv m l) (interpolate_list getenv' m' l).
    Proof.
      intros H HU. induction l as [|s l IH]; cbn [interpolate_list]; [right; reflexivity|].
      specialize (IH (fun s' Hs => HU s' (elem_of_list_further _ _ _ Hs))).
      pose proof (interp_agree m m' s H (HU s (elem_of_list_here _ _))) as E. destruct (interpolate getenv m s), (interpolate getenv' m' s); cbn in E; try contradiction E; [|exact E].
      destruct (interpolate_list getenv m l), (interpolate_list getenv' m' l); cbn in IH |- *; try contradiction IH; [|exact IH].
      destruct E as [E|E]; [left; exists s; split; [left|exact E]|]. destruct IH as [(s' & H1 & H2)|IH]; [left; exists s'; split; [right; exact H1|exact H2]|].
      right. congruence.
    Qed.
    Lemma interp_env_agree m m' env order : agree m m' -> (forall x s, env !! x = Some s -> known s) ->
      match interpolate_env getenv m env order, interpolate_env getenv' m' env order with
      | Ok e, Ok e' => (forall x, is_Some (e !! x) <-> is_Some (e' !! x)) /\ size e = size e' /\ ((exists x s, env !! x = Some s /\ uses s) \/ e = e')
      | Err e, Err e' => e = e'
      | _, _ => False
      end.
    Proof.
      intros H HU. induction order as [|x order IH]; cbn [interpolate_env]; [split; [reflexivity|]; split; [reflexivity|right; reflexivity]|].
      assert (HU' : known (default [] (env !! x))) by (destruct (env !! x) as [s|] eqn:Ex; [exact (HU x s Ex)|apply uses_nil]).
      pose proof (interp_agree m m' (default [] (env !! x)) H HU') as E.
      destruct (interpolate getenv m _) as [v|e], (interpolate getenv' m' _) as [v'|e']; cbn in E; try contradiction E; [|exact E].
      destruct (interpolate_env getenv m env order) as [r|], (interpolate_env getenv' m' env order) as [r'|]; try contradiction IH; [|exact IH].
      destruct IH as (Hdom & Hsize & Hu). split; [|split].
      - intros y. destruct (decide (x = y)) as [->|Hne]; [rewrite !lookup_insert; split; intros _; eauto|]. rewrite !lookup_insert_ne by exact Hne. apply Hdom.
      - pose proof (Hdom x) as Hx. destruct (r !! x) as [w|] eqn:E1, (r' !! x) as [w'|] eqn:E2.
        + rewrite !map_size_insert, E1, E2. cbn. exact Hsize.
        + exfalso. destruct Hx as [Hx _]. destruct Hx; [eauto|discriminate].
        + exfalso. destruct Hx as [_ Hx]. destruct Hx; [eauto|discriminate].
        + rewrite !map_size_insert, E1, E2. cbn. f_equal. exact Hsize.
      - destruct E as [E|E].
        + left. destruct (env !! x) as [s|] eqn:Ex; [exists x, s; split; [exact Ex|exact E]|contradiction (uses_nil V E)].
        + destruct Hu as [Hu|Hu]; [left; exact Hu|right; congruence].
    Qed.

    Lemma interp_prompt_agree m m' p : agree m m' ->
      known (p_message p) -> known (p_default p) -> known (p_placeholder p) -> (forall s, s ∈ p_options p -> known s) -> (forall s, s ∈ p_defaults p -> known s) ->
      match interpolate_prompt getenv m p, interpolate_prompt getenv' m' p with
      | Ok q, Ok q' => p_prompt q = p_prompt p /\ p_prompt q' = p_prompt p /\ p_type q = p_type q' /\
          ((uses (p_message p) \/ uses (p_default p) \/ uses (p_placeholder p) \/
            (exists s, s ∈ p_options p /\ uses s) \/ (exists s, s ∈ p_defaults p /\ uses s)) \/ q' = q)
      | Err e, Err e' => e = e'
      | _, _ => False
      end.
    Proof.
      intros H U1 U2 U3 U4 U5. unfold interpolate_prompt. cbv zeta.
      assert (Hopt : forall s, known s -> both (uses s) (match s with [] => Ok [] | _ => interpolate getenv m s end) (match s with [] => Ok [] | _ => interpolate getenv' m' s end)).
      { intros [|c s] Hs; [right; reflexivity|apply interp_agree; [exact H|exact Hs]]. }
      pose proof (interp_agree m m' (p_message p) H U1) as E1. pose proof (Hopt (p_default p) U2) as E2. pose proof (Hopt (p_placeholder p) U3) as E3.
      pose proof (interp_list_agree m m' (p_options p) H U4) as E4. pose proof (interp_list_agree m m' (p_defaults p) H U5) as E5.
      destruct (interpolate getenv m (p_message p)), (interpolate getenv' m' (p_message p)); cbn in E1; try contradiction E1; [|exact E1].
      destruct (match p_default p with [] => Ok [] | _ => interpolate getenv m _ end), (match p_default p with [] => Ok [] | _ => interpolate getenv' m' _ end); cbn in E2; try contradiction E2; [|exact E2].
      destruct (match p_placeholder p with [] => Ok [] | _ => interpolate getenv m _ end), (match p_placeholder p with [] => Ok [] | _ => interpolate getenv' m' _ end); cbn in E3; try contradiction E3; [|exact E3].
      destruct (interpolate_list getenv m (p_options p)), (interpolate_list getenv' m' (p_options p)); cbn in E4; try contradiction E4; [|exact E4].
      destruct (interpolate_list getenv m (p_defaults p)), (interpolate_list getenv' m' (p_defaults p)); cbn in E5; try contradiction E5; [|exact E5].
      cbn. split; [reflexivity|]. split; [reflexivity|]. split; [reflexivity|].
      destruct E1 as [E1|E1]; [left; auto|]. destruct E2 as [E2|E2]; [left; auto|]. destruct E3 as [E3|E3]; [left; auto|].
      destruct E4 as [E4|E4]; [left; auto 6|]. destruct E5 as [E5|E5]; [left; auto 6|]. right. congruence.
    Qed.

    (** ** Variables *)
    Section Resolve.
      Context (vs p p' : gmap str str) (Hp : agree p p') (Hvs : forall x s, vs !! x = Some s -> uses s -> x ∈ V) (HU : forall x s, vs !! x = Some s -> known s) (HUV : U ⊆ V).

      Definition states (s s' : rstate) : Prop :=
        agree (rs_resolved s) (rs_resolved s') /\ rs_resolving s = rs_resolving s' /\ rs_resolvedSet s = rs_resolvedSet s' /\ rs_stack s = rs_stack s'.
      Definition ones (n : str) (r r' : res ierr (str * rstate)) : Prop :=
        match r, r' with
        | Ok (v, s), Ok (v', s') => (n ∈ V \/ v = v') /\ states s s'
        | Err e, Err e' => e = e'
        | _, _ => False
        end.
      Definition alls (r r' : res ierr rstate) : Prop :=
        match r, r' with Ok s, Ok s' => states s s' | Err e, Err e' => e = e' | _, _ => False end.

      Lemma resolve_refs_agree rec rec' : (forall n s s', is_Some (vs !! n) -> states s s' -> ones n (rec n s) (rec' n s')) ->
        forall ns s s', states s s' -> alls (resolve_refs vs rec ns s) (resolve_refs vs rec' ns s').
      Proof.
        intros Hrec ns. induction ns as [|n ns IH]; intros s s' Hs; cbn [resolve_refs]; [exact Hs|].
        destruct (has_prefix env_prefix n); [apply IH; exact Hs|]. destruct (vs !! n) eqn:En; [|apply IH; exact Hs].
        pose proof (Hrec n s s' (mk_is_Some _ _ En) Hs) as E. destruct (rec n s) as [[v1 s1]|], (rec' n s') as [[v2 s2]|]; cbn in E; try contradiction E; [|exact E].
        destruct E as [Hv (Ha & Hr & Hset & Hst)]. apply IH. split; [|split; [exact Hr|split; [cbn; rewrite Hset; reflexivity|exact Hst]]].
        cbn. apply agree_insert; assumption.
      Qed.
      Lemma resolve_one_agree fuel : forall n s s', is_Some (vs !! n) -> states s s' -> ones n (resolve_one getenv vs p fuel n s) (resolve_one getenv' vs p' fuel n s').
      Proof.
        induction fuel as [|fuel IH]; intros n s s' [raw En] Hs; cbn [resolve_one]; [reflexivity|]. pose proof Hs as (Ha & Hr & Hset & Hst).
        rewrite <- Hset, <- Hr, <- Hst. destruct (bool_decide (n ∈ rs_resolvedSet s)).
        { cbn. split; [|exact Hs]. specialize (Ha n). destruct (rs_resolved s !! n), (rs_resolved s' !! n); try (left; exact (HUV n Ha)); [exact Ha|right; reflexivity]. }
        destruct (bool_decide (n ∈ rs_resolving s)); [reflexivity|]. rewrite En.
        pose proof (resolve_refs_agree _ _ IH (extract_refs raw) (RState (rs_resolved s) ({[n]} ∪ rs_resolving s) (rs_resolvedSet s) (rs_stack s ++ [n]))
                      (RState (rs_resolved s') ({[n]} ∪ rs_resolving s) (rs_resolvedSet s) (rs_stack s ++ [n]))) as E.
        specialize (E (conj Ha (conj eq_refl (conj eq_refl eq_refl)))). cbv zeta.
        destruct (resolve_refs vs (resolve_one getenv vs p fuel) _ _) as [s2|], (resolve_refs vs (resolve_one getenv' vs p' fuel) _ _) as [s2'|]; cbn in E; try contradiction E; [|exact E].
        destruct E as (Ha2 & Hr2 & Hset2 & Hst2). pose proof (interp_agree _ _ raw Ha2 (HU n raw En)) as E.
        destruct (interpolate getenv (rs_resolved s2) raw) as [v|], (interpolate getenv' (rs_resolved s2') raw) as [v'|]; cbn in E; try contradiction E; [|exact E].
        assert (Hv : n ∈ V \/ v = v') by (destruct E as [E|E]; [left; eapply Hvs; eassumption|right; exact E]).
        cbn. split; [exact Hv|]. split; [cbn; apply agree_insert; assumption|]. cbn. rewrite Hr2, Hset2, Hst2. auto.
      Qed.
      Lemma resolve_all_agree fuel order : (forall n, n ∈ order -> is_Some (vs !! n)) -> forall s s', states s s' -> alls (resolve_all getenv vs p fuel order s) (resolve_all getenv' vs p' fuel order s').
      Proof.
        induction order as [|n order IH]; intros Ho s s' Hs; cbn [resolve_all]; [exact Hs|]. pose proof (resolve_one_agree fuel n s s' (Ho n (elem_of_list_here _ _)) Hs) as E.
        destruct (resolve_one getenv vs p fuel n s) as [[v s1]|], (resolve_one getenv' vs p' fuel n s') as [[v' s1']|]; cbn in E; try contradiction E; [|exact E].
        apply IH; [intros n' Hn'; apply Ho; right; exact Hn'|apply E].
      Qed.
      Lemma resolve_vars_agree order : order ≡ₚ (map_to_list vs).*1 ->
        match resolve_vars getenv (Some vs) (Some p) order, resolve_vars getenv' (Some vs) (Some p') order with
        | Ok m, Ok m' => agree m m' | Err e, Err e' => e = e' | _, _ => False end.
      Proof.
        intros Ho. cbn. unfold resolve_vars_in.
        assert (Hin : forall n, n ∈ order -> is_Some (vs !! n)).
        { intros n Hn. rewrite Ho, elem_of_list_fmap in Hn. destruct Hn as ([y v] & -> & Hy). apply elem_of_map_to_list in Hy. exists v. exact Hy. }
        pose proof (resolve_all_agree (S (size vs)) order Hin (RState p ∅ ∅ []) (RState p' ∅ ∅ [])) as E.
        specialize (E (conj Hp (conj eq_refl (conj eq_refl eq_refl)))).
        destruct (resolve_all getenv vs p _ _ _), (resolve_all getenv' vs p' _ _ _); cbn in E; try contradiction E; [apply E|exact E].
      Qed.
    End Resolve.

    (** ** Texts without references *)
    Lemma rich_dec s : rich s \/ ~ rich s.
    Proof.
      destruct (decide ("000"%char ∈ s)) as [H|H]; [left; right; exact H|].
      enough (G : (exists a b, s = a ++ lit "${{" ++ b) \/ ~ (exists a b, s = a ++ lit "${{" ++ b)).
      { destruct G as [G|G]; [left; left; exact G|right; intros [R|R]; [exact (G R)|exact (H R)]]. }
      clear H. induction s as [|c s IH].
      - right. intros (a & b & E). destruct a; discriminate E.
      - destruct (strip_prefix (lit "${{") (c :: s)) as [r|] eqn:E.
        + left. exists [], r. apply strip_prefix_Some in E. exact E.
        + rewrite strip_prefix_None in E. destruct IH as [(a & b & IH)|IH]; [left; exists (c :: a), b; cbn; rewrite IH; reflexivity|].
          right. intros (a & b & Eq). destruct a as [|c' a]; [exact (E b Eq)|]. injection Eq as <- Eq. apply IH. exists a, b. exact Eq.
    Qed.
    Lemma poor_reads s : ~ (exists a b, s = a ++ lit "${{" ++ b) -> reads s (map PChr s).
    Proof.
      induction s as [|c s IH]; intros H; [constructor|]. cbn [map]. apply reads_chr.
      - intros [r E]. apply H. exists (lit "$"), r. exact E.
      - intros (t & n & r & Ht & E). destruct Ht. apply H. exists []. eexists. rewrite E. cbn [app]. rewrite <- app_assoc. reflexivity.
      - apply IH. intros (a & b & ->). apply H. exists (c :: a), b. reflexivity.
    Qed.
    Lemma poor_refs s : ~ rich s -> refs s = [].
    Proof.
      intros H. rewrite (refs_reads s (map PChr s)); [|apply poor_reads; intros E; apply H; left; exact E].
      clear H. induction s; [reflexivity|exact IHs].
    Qed.
    Lemma poor_text m s : ~ rich s -> interpolate getenv m s = Ok s.
    Proof.
      intros H. unfold interpolate. cbv zeta. pose proof (poor_refs s H) as Hrefs. unfold refs in Hrefs. rewrite Hrefs. cbn [ref_errs]. f_equal.
      assert (Hr : reads s (map PChr s)) by (apply poor_reads; intros E; apply H; left; exact E).
      rewrite (passes12 s _ Hr).
      assert (E : forall l : str, render (subst_ref getenv m) (toks_of (map PChr l)) = l).
      { intros l. induction l as [|c l IH]; [reflexivity|]. cbn [map toks_of render]. rewrite IH. reflexivity. }
      rewrite E. rewrite <- (app_nil_r s) at 1. unfold placeholder. rewrite replace_all_skip; [apply app_nil_r|].
      intros Hin. apply H. right. exact Hin.
    Qed.
    Lemma poor_uses s : ~ rich s -> ~ uses s.
    Proof. intros H. rewrite uses_refs, (poor_refs s H). intros (n & Hn & _). inversion Hn. Qed.
    Lemma interp_env_value m env order e x v : interpolate_env getenv m env order = Ok e -> e !! x = Some v ->
      interpolate getenv m (default [] (env !! x)) = Ok v.
    Proof.
      revert e. induction order as [|y order IH]; intros e E Hx; cbn [interpolate_env] in E.
      - injection E as <-. rewrite lookup_empty in Hx. discriminate Hx.
      - destruct (interpolate getenv m (default [] (env !! y))) as [w|] eqn:Ew; [|discriminate E].
        destruct (interpolate_env getenv m env order) as [r|]; [|discriminate E]. injection E as <-.
        destruct (decide (y = x)) as [->|Hne]; [rewrite lookup_insert in Hx; injection Hx as <-; exact Ew|].
        rewrite lookup_insert_ne in Hx by exact Hne. exact (IH r eq_refl Hx).
    Qed.
  End Env.
End Texts.

(** ** Runs *)
Section Run.
  Context (k : config) (tasks : taskmap) (V U : gset str) (other : str -> list nat -> str -> str).
  (** The second run. *)
  Context (k' : config) (Hch : changed k k' V).
  Notation g' := (k_vars k'). Notation getenv' := (k_getenv k').
  Context (Hkeyed : forall n t, tasks !! n = Some t -> t_name t = n) (Hconf : confined k tasks V).
  Context (Hg : agree V U (k_vars k) g').
  Context (HUV : U ⊆ V) (Hun : U = ∅ \/ unread k tasks U).
  Notation g := (k_vars k). Notation alike := (alike k k' tasks V U other). Notation O := (out_alike k tasks).
  Notation uses := (uses V). Notation agree := (agree V U). Notation speaks := (speaks k tasks V). Notation known s := (~ Secret_Spec.uses U s).
  Notation smatched := (matched alike (fun _ => False) (fun _ => True)).
  Notation ssim := (sim g g' alike (fun _ => False) eq (fun _ => True) (out_alike k tasks V)).
  Notation item_speaks := (item_speaks k V).
  Let Hget := ch_getenv _ _ _ Hch.
  Local Ltac same_settings := rewrite ?(ch_dry _ _ _ Hch), ?(ch_env _ _ _ Hch), ?(ch_silent _ _ _ Hch), ?(ch_output _ _ _ Hch), ?(ch_dir _ _ _ Hch), ?(ch_os _ _ _ Hch), ?(ch_terminal _ _ _ Hch).

  (** Texts of tasks refer to nothing that may be missing. *)
  Lemma no_uses s : ~ Secret_Spec.uses ∅ s.
  Proof. intros (ps & n & _ & _ & H). exact (not_elem_of_empty n H). Qed.
  Lemma uses_more s : Secret_Spec.uses U s -> uses s.
  Proof. intros (ps & n & Hr & Hn & H). exists ps, n. auto. Qed.
  Lemma known_text s : ~ uses s -> known s.
  Proof. intros H H'. exact (H (uses_more s H')). Qed.
  Lemma known_vars T t vs x s : tasks !! T = Some t -> t_vars t = Some vs -> vs !! x = Some s -> known s.
  Proof. destruct Hun as [-> |H]; [intros; apply no_uses|]. intros Ht Hvs Hx. exact (un_vars _ _ _ H T t vs x s Ht Hvs Hx). Qed.
  Lemma known_item T t pa it s : tasks !! T = Some t -> item_at t pa it -> (Secret_Spec.uses U s -> Secret_Spec.item_speaks k U t it) -> known s.
  Proof. destruct Hun as [E|H]; [intros; rewrite E; apply no_uses|]. intros Ht Hat Hs Hu. exact (un_items _ _ _ H T t pa it Ht Hat (Hs Hu)). Qed.

  Lemma matched_alike h1 h2 : smatched h1 h2 -> Forall2 alike h1 h2.
  Proof. induction 1; try contradiction; constructor; assumption. Qed.

  (** Shared state. *)
  Lemma alike_status h1 h2 n : Forall2 alike h1 h2 -> status_of h1 n = status_of h2 n.
  Proof. induction 1 as [|e1 e2 h1 h2 He Hh IH]; [reflexivity|]. destruct He as [ev _| | | | | | | | | | | | | | |]; cbn; rewrite ?IH; reflexivity. Qed.
  Lemma alike_allocs h1 h2 : Forall2 alike h1 h2 -> allocs h1 = allocs h2.
  Proof. induction 1 as [|e1 e2 h1 h2 He Hh IH]; [reflexivity|]. destruct He as [ev _| | | | | | | | | | | | | | |]; cbn; rewrite ?IH; reflexivity. Qed.
  Lemma alike_contexts h1 h2 : Forall2 alike h1 h2 -> contexts h1 = contexts h2.
  Proof. induction 1 as [|e1 e2 h1 h2 He Hh IH]; [reflexivity|]. destruct He as [ev _| | | | | | | | | | | | | | |]; cbn; rewrite ?IH; reflexivity. Qed.
  Lemma alike_cancelled h1 h2 c : Forall2 alike h1 h2 -> cancelledb h1 c = cancelledb h2 c.
  Proof. induction 1 as [|e1 e2 h1 h2 He Hh IH]; [reflexivity|]. destruct He as [ev _| | | | | | | | | | | | | | |]; cbn; rewrite ?IH; reflexivity. Qed.
  Lemma alike_heap h1 h2 l : Forall2 alike h1 h2 -> agree (heap_of g h1 l) (heap_of g' h2 l).
  Proof.
    induction 1 as [|e1 e2 h1 h2 He Hh IH]; [exact Hg|]. destruct He as [ev _| | | | | | | | | | | | | | |]; cbn; try exact IH.
    - destruct ev; cbn; try exact IH; destruct (decide _); try exact IH; [apply agree_refl|apply agree_insert; [exact IH|right; reflexivity]].
    - destruct (decide _); [assumption|exact IH].
    - destruct (decide _); [apply agree_insert; [exact IH|left; assumption]|exact IH].
  Qed.

  Lemma transfer h1 h2 ev : smatched h1 h2 -> match ev with ORead _ _ _ _ => False | _ => True end -> allowed g h1 ev -> allowed g' h2 ev.
  Proof.
    intros Hm Hev. apply matched_alike in Hm.
    destruct ev; cbn in Hev |- *; try contradiction Hev;
      rewrite <- ?(alike_status _ _ n Hm), <- ?(alike_allocs _ _ Hm), <- ?(alike_contexts _ _ Hm), <- ?(alike_cancelled _ _ _ Hm); intros H; try exact H.
    intros n. rewrite <- (alike_status _ _ n Hm). apply H.
  Qed.

  Lemma O_refl r : O V r r.
  Proof. destruct r; constructor. constructor. Qed.
  Lemma ret_same r : ssim (Ret r) (Ret r).
  Proof. apply sim_ret, O_refl. Qed.
  Lemma ret_err e e' : err_alike k tasks V e e' -> ssim (Ret (Some e)) (Ret (Some e')).
  Proof. intros H. apply sim_ret. constructor. exact H. Qed.
  Lemma keep w : (forall e e', err_alike k tasks V e e' -> err_alike k tasks V (w e) (w e')) -> kept_by_wrap (out_alike k tasks V) w.
  Proof. intros H r1 r2 Hr. destruct Hr; [exact I|]. constructor. apply H. assumption. Qed.

  Definition plain_eff (e : eff) : bool := match e with ERead _ _ _ | EPrompt _ _ _ | EStart _ => false | _ => true end.
  Lemma sim_same e q1 q2 : plain_eff e = true -> (forall r, ssim (q1 r) (q2 r)) -> ssim (Vis e q1) (Vis e q2).
  Proof.
    intros He Hq. apply (sim_vis _ _ _ _ _ _ _ e q1 e q2 eq); [|intros r ? <-; apply Hq].
    intros h1 h2 r Hm _ Hal. exists r. split; [reflexivity|]. split.
    - apply (transfer h1 h2 _ Hm); [|exact Hal]. destruct e; try discriminate He; exact I.
    - apply same_event. destruct e; try discriminate He; intros [].
  Qed.
  Lemma sim_read T pa l q1 q2 : (forall m m', agree m m' -> ssim (q1 m) (q2 m')) -> ssim (Vis (ERead T pa l) q1) (Vis (ERead T pa l) q2).
  Proof.
    intros Hq. apply (sim_vis _ _ _ _ _ _ _ (ERead T pa l) q1 (ERead T pa l) q2 (fun m m' => agree m m')); [|exact Hq].
    intros h1 h2 m Hm _ Hal. cbn in Hal. pose proof (alike_heap h1 h2 l (matched_alike _ _ Hm)) as Ha. rewrite <- Hal in Ha.
    exists (heap_of g' h2 l). split; [exact Ha|]. split; [reflexivity|]. apply alike_read. exact Ha.
  Qed.
  Lemma sim_alloc T pa m m' q1 q2 : agree m m' -> (forall l, ssim (q1 l) (q2 l)) -> ssim (Vis (EAlloc T pa m) q1) (Vis (EAlloc T pa m') q2).
  Proof.
    intros Ha Hq. apply (sim_vis _ _ _ _ _ _ _ (EAlloc T pa m) q1 (EAlloc T pa m') q2 eq); [|intros r ? <-; apply Hq].
    intros h1 h2 l Hm _ Hal. exists l. split; [reflexivity|]. split; [exact (transfer h1 h2 (OAlloc T pa m' l) Hm I Hal)|]. apply alike_alloc. exact Ha.
  Qed.
  (** Requests that the outside world may answer in any way, or not at all. *)
  Lemma sim_open e1 e2 (f : resp e1 -> resp e2) q1 q2 :
    (forall h1 h2 r, smatched h1 h2 -> allowed g h1 (obs e1 r) -> allowed g' h2 (obs e2 (f r)) /\ alike (obs e1 r) (obs e2 (f r))) ->
    (forall r, ssim (q1 r) (q2 (f r))) -> ssim (Vis e1 q1) (Vis e2 q2).
  Proof.
    intros H Hq. apply (sim_vis _ _ _ _ _ _ _ e1 q1 e2 q2 (fun r r' => r' = f r)); [|intros r ? ->; apply Hq].
    intros h1 h2 r Hm _ Hal. exists (f r). split; [reflexivity|]. exact (H h1 h2 r Hm Hal).
  Qed.
  Lemma keys_perm (m m' : gmap str str) : (forall x, is_Some (m !! x) <-> is_Some (m' !! x)) -> (map_to_list m).*1 ≡ₚ (map_to_list m').*1.
  Proof.
    intros H. apply NoDup_Permutation; [apply NoDup_fst_map_to_list..|]. intros x. rewrite !elem_of_list_fmap. split.
    - intros ([y v] & -> & Hy). apply elem_of_map_to_list in Hy. destruct (proj1 (H y)) as [v' Hv]; [eauto|].
      exists (y, v'). split; [reflexivity|]. apply elem_of_map_to_list. exact Hv.
    - intros ([y v] & -> & Hy). apply elem_of_map_to_list in Hy. destruct (proj2 (H y)) as [v' Hv]; [eauto|].
      exists (y, v'). split; [reflexivity|]. apply elem_of_map_to_list. exact Hv.
  Qed.
  Lemma sim_keys m q1 q2 : (forall o, o ≡ₚ (map_to_list m).*1 -> ssim (q1 o) (q2 o)) -> ssim (Vis (EOrder m) q1) (Vis (EOrder m) q2).
  Proof.
    intros Hq. apply (sim_vis _ _ _ _ _ _ _ (EOrder m) q1 (EOrder m) q2 (fun o o' => o = o' /\ o ≡ₚ (map_to_list m).*1)); [|intros o ? [<- Ho]; apply Hq; exact Ho].
    intros h1 h2 o Hm _ Hal. exists o. split; [split; [reflexivity|exact Hal]|]. split; [exact Hal|]. apply same_event. intros [].
  Qed.
  Lemma sim_order m m' q1 q2 : (forall x, is_Some (m !! x) <-> is_Some (m' !! x)) ->
    (forall o, ssim (q1 o) (q2 o)) -> ssim (Vis (EOrder m) q1) (Vis (EOrder m') q2).
  Proof.
    intros Hd Hq. apply (sim_open (EOrder m) (EOrder m') (fun o => o)); [|exact Hq].
    intros h1 h2 o Hm Hal. cbn in Hal |- *. split; [rewrite <- (keys_perm m m' Hd); exact Hal|apply alike_order; exact Hd].
  Qed.

  (** Environments: equal, or the item is one that speaks. *)
  Definition envs (P : Prop) (e e' : gmap str str) : Prop :=
    (forall x, is_Some (e !! x) <-> is_Some (e' !! x)) /\ size e = size e' /\ (P \/ e = e').
  Local Ltac open_same := match goal with |- ssim (Vis ?e1 _) (Vis ?e2 _) => apply (sim_open e1 e2 (fun x => x)) end.
  Lemma sim_env ln vars vars' env f1 f2 : agree vars vars' -> (forall x s, env !! x = Some s -> known s) ->
    (forall m m', (forall x v, m !! x = Some v -> interpolate (k_getenv k) vars (default [] (env !! x)) = Ok v) ->
       envs (exists x s, env !! x = Some s /\ uses s) m m' -> ssim (f1 m) (f2 m')) ->
    ssim (interpolate_env_then k ln vars env f1) (interpolate_env_then k' ln vars' env f2).
  Proof.
    intros Ha HU Hf. unfold interpolate_env_then. same_settings. destruct (decide (env = ∅)) as [->|Hne].
    { apply Hf; [intros x v Hx; rewrite lookup_empty in Hx; discriminate Hx|]. split; [reflexivity|]. split; [reflexivity|right; reflexivity]. }
    apply sim_same; [reflexivity|]. intros order. pose proof (interp_env_agree V U (k_getenv k) getenv' Hget vars vars' env order Ha HU) as E.
    destruct (interpolate_env (k_getenv k) vars env order) as [m|] eqn:Em, (interpolate_env getenv' vars' env order) as [m'|]; try contradiction E.
    - apply Hf; [|exact E]. intros x v Hx. exact (interp_env_value (k_getenv k) vars env order m x v Em Hx).
    - rewrite E. apply ret_same.
  Qed.

  Lemma sim_dir t pa ln d vars vars' f1 f2 : agree vars vars' -> known (match d with [] => match t_dir t with [] => k_dir k | d => d end | d => d end) -> (uses (match d with [] => match t_dir t with [] => k_dir k | d => d end | d => d end) -> speaks (t_name t) pa) ->
    (forall d1 d2, speaks (t_name t) pa \/ d1 = d2 -> ssim (f1 d1) (f2 d2)) ->
    ssim (resolve_dir_then k t pa ln d vars f1) (resolve_dir_then k' t pa ln d vars' f2).
  Proof.
    intros Ha HU Hu Hf. unfold resolve_dir_then. same_settings. cbv zeta.
    replace (match match d with [] => t_dir t | _ :: _ => d end with [] => k_dir k | _ :: _ => match d with [] => t_dir t | _ :: _ => d end end)
      with (match d with [] => match t_dir t with [] => k_dir k | d => d end | d => d end) by (destruct d; [destruct (t_dir t)|]; reflexivity).
    destruct (match d with [] => match t_dir t with [] => k_dir k | d => d end | d => d end) as [|c d2]; [apply Hf; right; reflexivity|].
    pose proof (interp_agree V U (k_getenv k) getenv' Hget vars vars' (c :: d2) Ha HU) as E.
    destruct (interpolate (k_getenv k) vars (c :: d2)) as [d3|e], (interpolate getenv' vars' (c :: d2)) as [d3'|e']; cbn in E; try contradiction E;
      [|rewrite E; apply ret_same].
    assert (Hs : speaks (t_name t) pa \/ d3 = d3') by (destruct E as [E|E]; [left; apply Hu; exact E|right; exact E]).
    open_same.
    - intros h1 h2 s Hm _. split; [exact I|]. destruct Hs as [Hs|<-]; [apply alike_stat; exact Hs|apply same_event; intros []].
    - intros s. assert (Hs' : speaks (t_name t) pa \/ clean (if is_abs d3 then d3 else join2 (dir (t_source t)) d3) = clean (if is_abs d3' then d3' else join2 (dir (t_source t)) d3'))
        by (destruct Hs as [Hs|<-]; [left; exact Hs|right; reflexivity]).
      destruct s; try (apply ret_err; destruct Hs' as [Hs'|<-]; [eapply err_dir; exact Hs'|constructor]). apply Hf. exact Hs'.
  Qed.

  (** The environment of a task holds a reference only if it can be expanded twice. *)
  Definition env_safe (t : task) (env : gmap str str) : Prop :=
    forall W x s, env !! x = Some s -> Secret_Spec.uses W s -> exists y w, (smap_get (t_env t) !! y = Some w \/ smap_get (k_env k) !! y = Some w) /\ rich w.

  Lemma merged_env t x s : smap_get (merge_maps (k_env k) (t_env t)) !! x = Some s -> smap_get (t_env t) !! x = Some s \/ smap_get (k_env k) !! x = Some s.
  Proof. unfold merge_maps. cbn [smap_get default]. intros H. apply lookup_union_Some_raw in H as [H|[_ H]]; auto. Qed.
  Lemma env_is_safe t vars m :
    (forall x v, m !! x = Some v -> interpolate (k_getenv k) vars (default [] (smap_get (merge_maps (k_env k) (t_env t)) !! x)) = Ok v) ->
    tasks !! t_name t = Some t -> env_safe t m.
  Proof.
    intros H Ht W x s Hx Hu. specialize (H x s Hx). destruct (smap_get (merge_maps (k_env k) (t_env t)) !! x) as [w|] eqn:Ew.
    - destruct (rich_dec w) as [Hr|Hr]; [exists x, w; split; [apply merged_env; exact Ew|exact Hr]|].
      change (interpolate (k_getenv k) vars w = Ok s) in H. rewrite (poor_text (k_getenv k) vars w Hr) in H. injection H as <-. exfalso. exact (poor_uses W w Hr Hu).
    - change (interpolate (k_getenv k) vars [] = Ok s) in H. rewrite (poor_text (k_getenv k) vars []) in H.
      + injection H as <-. contradiction (uses_nil W Hu).
      + intros [(a & b & E)|E]; [destruct a; discriminate E|inversion E].
  Qed.

  Lemma sim_command c t pa l env a : tasks !! t_name t = Some t -> item_at t pa (RCmd c) -> env_safe t env ->
    ssim (execute_command k c t pa l env a) (execute_command k' c t pa l env a).
  Proof.
    intros Ht Hat Hsafe. unfold execute_command. same_settings. destruct (trim_space (c_cmd c)) as [|ch tr]; [apply ret_same|].
    assert (Hsp : item_speaks t (RCmd c) -> speaks (t_name t) pa) by (intros H; exists t, (RCmd c); auto).
    assert (Hkn : forall s, (Secret_Spec.uses U s -> Secret_Spec.item_speaks k U t (RCmd c)) -> known s) by (intros s; eapply known_item; eassumption).
    apply sim_read. intros vars vars' Ha.
    pose proof (interp_agree V U (k_getenv k) getenv' Hget vars vars' (c_cmd c) Ha (Hkn _ (fun H => or_introl H))) as E.
    destruct (interpolate (k_getenv k) vars (c_cmd c)) as [cmd|], (interpolate getenv' vars' (c_cmd c)) as [cmd'|]; cbn in E; try contradiction E;
      [|rewrite E; apply ret_same].
    assert (Hc : speaks (t_name t) pa \/ cmd = cmd') by (destruct E as [E|E]; [left; apply Hsp; left; exact E|right; exact E]). clear E.
    assert (Hmerged : forall W x s, smap_get (merge_maps (Some env) (c_env c)) !! x = Some s -> Secret_Spec.uses W s -> Secret_Spec.item_speaks k W t (RCmd c)).
    { intros W x s Hx Hu. unfold merge_maps in Hx. cbn [smap_get default] in Hx. apply lookup_union_Some_raw in Hx as [Hx|[_ Hx]].
      - right. left. exists x, s. split; assumption.
      - right. right. right. exact (Hsafe W x s Hx Hu). }
    apply sim_env; [exact Ha|intros x s Hx; apply Hkn; exact (Hmerged U x s Hx)|]. intros ce ce' _ (Hdom & Hsz & He).
    assert (He' : speaks (t_name t) pa \/ ce = ce').
    { destruct He as [(x & s & Hx & Hu)|He]; [left|right; exact He]. apply Hsp.
      exact (Hmerged V x s Hx Hu). }
    clear He. apply sim_dir; [exact Ha| | |].
    { apply Hkn. intros Hu. right. right. left. unfold dir_given. destruct (c_dir c); exact Hu. }
    { intros Hu. apply Hsp. right. right. left. unfold dir_given. destruct (c_dir c); exact Hu. }
    intros d d' Hd. destruct (k_dry k).
    { open_same; [|intros _; apply ret_same]. intros h1 h2 u Hm _. split; [exact I|].
      rewrite <- Hsz. destruct Hc as [Hc|<-]; [apply alike_would; [exact Hc|reflexivity]|]. destruct Hd as [Hd|<-]; [apply alike_would; [exact Hd|reflexivity]|].
      apply same_event. intros []. }
    cbv zeta.
    match goal with |- ssim (if ?b then ?p else _) (if _ then ?q else _) => assert (Hgo : ssim p q) end.
    { apply sim_order; [exact Hdom|]. intros order. open_same.
      - intros h1 h2 b Hm Hal. split; [exact (transfer h1 h2 (OStart _ b) Hm I Hal)|].
        destruct Hc as [Hc|<-]; [apply alike_start; exact Hc|]. destruct He' as [He'|<-]; [apply alike_start; exact He'|].
        destruct Hd as [Hd|<-]; [apply alike_start; exact Hd|]. unfold command_environ. apply alike_inherited.
      - assert (Hf : ssim (Ret (Some (RCmdFailed (t_name t) cmd))) (Ret (Some (RCmdFailed (t_name t) cmd')))).
        { apply ret_err. destruct Hc as [Hc|<-]; [eapply err_cmd; exact Hc|constructor]. }
        intros [|]; [|exact Hf]. apply sim_same; [reflexivity|]. intros [|]; [apply ret_same|exact Hf]. }
    destruct (is_silent _); [exact Hgo|]. open_same; [|intros _; exact Hgo].
    intros h1 h2 u Hm _. split; [exact I|]. destruct Hc as [Hc|<-]; [apply alike_echo; exact Hc|apply same_event; intros []].
  Qed.

  Section Calls.
    Context (rt rt' : str -> args -> prog) (Hrt : forall n a, ssim (rt n a) (rt' n a)).

    Lemma sim_run_item it t pa l env a : tasks !! t_name t = Some t -> item_at t pa it -> env_safe t env ->
      ssim (execute_run_item k rt it t pa l env a) (execute_run_item k' rt' it t pa l env a).
    Proof.
      intros Ht Hat Hsafe. destruct it as [c|r|lg|p|o items]; cbn [execute_run_item]; try apply ret_same; same_settings.
      - apply sim_command; assumption.
      - destruct (k_dry k); [apply sim_same; [reflexivity|intros _; apply ret_same]|apply Hrt].
      - apply sim_read. intros vars vars' Ha. 
        pose proof (interp_agree V U (k_getenv k) getenv' Hget vars vars' (l_log lg) Ha (known_item _ t pa (RLog lg) _ Ht Hat (fun H => H))) as E.
        destruct (interpolate (k_getenv k) vars (l_log lg)) as [x|], (interpolate getenv' vars' (l_log lg)) as [x'|]; cbn in E; try contradiction E;
          [|rewrite E; apply ret_same].
        assert (Hx : speaks (t_name t) pa \/ x = x') by (destruct E as [E|E]; [left; exists t, (RLog lg); auto|right; exact E]).
        destruct (k_dry k).
        + open_same; [|intros _; apply ret_same]. intros h1 h2 u Hm _. split; [exact I|].
          destruct Hx as [Hx|<-]; [apply alike_would; [exact Hx|reflexivity]|apply same_event; intros []].
        + open_same; [|intros _; apply ret_same]. intros h1 h2 u Hm _. split; [exact I|].
          destruct Hx as [Hx|<-]; [apply alike_log; exact Hx|apply same_event; intros []].
    Qed.

    Lemma sim_pre_deps deps seen a q q' : (forall s, ssim (q s) (q' s)) -> ssim (pre_deps rt deps seen a q) (pre_deps rt' deps seen a q').
    Proof.
      intros Hq. revert seen. induction deps as [|d r IH]; intros seen; cbn [pre_deps]; [apply Hq|].
      destruct (decide (d ∈ seen)); [apply IH|]. apply sim_same; [reflexivity|]. intros [| |]; [| |apply IH];
        (apply sim_and_then; [apply keep; intros; apply err_pre; assumption|apply Hrt|apply IH]).
    Qed.
    Lemma sim_pre_resolve items seen a : ssim (pre_resolve tasks rt items seen a) (pre_resolve tasks rt' items seen a).
    Proof.
      revert seen. induction items as [|it r IH]; intros seen; [apply ret_same|]. destruct it; cbn [pre_resolve]; try apply IH.
      destruct (tasks !! r_task t); [|apply ret_same]. apply sim_pre_deps. intros s. apply IH.
    Qed.

    Lemma first_err_alike l1 l2 : logs (out_alike k tasks V) l1 l2 -> O V (first_err l1) (first_err l2).
    Proof.
      induction 1 as [|[j r1] [j' r2] l1 l2 [Hj Hr] Hl IH]; [constructor|]. cbn in Hj, Hr |- *. subst j'.
      destruct Hr; [exact IH|]. constructor. apply err_item. assumption.
    Qed.
    Lemma succeeded_alike l1 l2 j : logs (out_alike k tasks V) l1 l2 -> succeeded l1 j = succeeded l2 j.
    Proof.
      unfold succeeded. induction 1 as [|[i r1] [i' r2] l1 l2 [Hi Hr] Hl IH]; [reflexivity|]. cbn in Hi, Hr |- *. subst i'. rewrite IH.
      destruct Hr; reflexivity.
    Qed.
    Lemma sim_fork_items o items t i l env c sub q q' : tasks !! t_name t = Some t -> t_run t !! i = Some (RPar o items) -> env_safe t env ->
      (forall l1 l2, logs (out_alike k tasks V) l1 l2 -> ssim (q l1) (q' l2)) ->
      ssim (fork k rt o items t [i] l env c sub q) (fork k' rt' o items t [i] l env c sub q').
    Proof.
      intros Ht Hi Hsafe Hq. unfold fork. apply sim_fork; [reflexivity|apply list_eq; intros j; rewrite !list_lookup_fmap, !list_lookup_imap; destruct (items !! j); reflexivity|constructor| |exact Hq].
      intros j s1 s2 p1 p2 H1 H2. rewrite list_lookup_imap in H1, H2.
      destruct (items !! j) as [it|] eqn:E; [|discriminate H1]. injection H1 as <- <-. injection H2 as <- <-. apply sim_run_item; [exact Ht| |exact Hsafe].
      cbn. exists o, items. auto.
    Qed.
    Lemma sim_parallel o items t i l env a : tasks !! t_name t = Some t -> t_run t !! i = Some (RPar o items) -> env_safe t env ->
      ssim (execute_parallel k tasks rt o items t [i] l env a) (execute_parallel k' tasks rt' o items t [i] l env a).
    Proof.
      intros Ht Hi Hsafe. unfold execute_parallel. same_settings. apply sim_and_then; [apply keep; auto|apply sim_pre_resolve|].
      destruct (k_dry k); [apply sim_same; [reflexivity|intros _; apply ret_same]|].
      destruct (is_tui_mode (q_mode o) && k_terminal k && (negb (a_piped a) || a_in_tui a)).
      - assert (Hfin : forall b d l1 l2, logs (out_alike k tasks V) l1 l2 ->
          ssim (if b : bool then Ret (first_err l1) else Vis (ESummary (t_name t) [i] (imap (fun j _ => succeeded l1 j) items) d) (fun _ => Ret (first_err l1)))
               (if b then Ret (first_err l2) else Vis (ESummary (t_name t) [i] (imap (fun j _ => succeeded l2 j) items) d) (fun _ => Ret (first_err l2)))).
        { intros b d l1 l2 Hl. destruct b; [apply sim_ret, first_err_alike, Hl|].
          replace (imap (fun j _ => succeeded l2 j) items) with (imap (fun j _ => succeeded l1 j) items).
          - apply sim_same; [reflexivity|]. intros _. apply sim_ret, first_err_alike, Hl.
          - apply imap_ext. intros j _ _. apply succeeded_alike. exact Hl. }
        unfold execute_tui. same_settings. cbn [a_tui a_ctx a_out a_silent a_output a_nocolor a_scope]. destruct (a_tui a).
        + apply sim_fork_items; [assumption..|]. intros l1 l2 Hl. apply Hfin. exact Hl.
        + apply sim_same; [reflexivity|]. intros i'. apply sim_same; [reflexivity|]. intros [|]; [|apply ret_same].
          apply sim_fork_items; [assumption..|]. intros l1 l2 Hl. apply Hfin. exact Hl.
      - unfold execute_interleaved. apply sim_fork_items; [assumption..|]. intros l1 l2 Hl. apply sim_ret, first_err_alike, Hl.
    Qed.

    Lemma sim_item it t i l env a : tasks !! t_name t = Some t -> t_run t !! i = Some it -> env_safe t env ->
      ssim (execute_item k tasks rt it t i l env a) (execute_item k' tasks rt' it t i l env a).
    Proof.
      intros Ht Hi Hsafe. destruct it as [c|r|lg|p|o items]; unfold execute_item; try (apply sim_run_item; [exact Ht|exact Hi|exact Hsafe]); same_settings.
      - apply sim_read. intros vars vars' Ha. 
        assert (Hkn : forall s, (Secret_Spec.uses U s -> Secret_Spec.item_speaks k U t (RPrompt p)) -> known s) by (intros s; apply (known_item _ t [i] (RPrompt p) s Ht Hi)).
        pose proof (interp_prompt_agree V U (k_getenv k) getenv' Hget vars vars' p Ha) as E.
        do 5 (match type of E with ?P -> _ => assert (Hc : P) by (first [intros s Hs; apply Hkn; cbn; eauto 7|apply Hkn; cbn; auto 6]); specialize (E Hc); clear Hc end).
        destruct (interpolate_prompt (k_getenv k) vars p) as [q|], (interpolate_prompt getenv' vars' p) as [q'|]; try contradiction E;
          [|rewrite E; apply ret_same].
        destruct E as (Hp & Hp' & Hty & Hq). assert (Hq' : speaks (t_name t) [i] \/ q' = q).
        { destruct Hq as [Hq|Hq]; [left; exists t, (RPrompt p); split; [exact Ht|split; [exact Hi|exact Hq]]|right; exact Hq]. }
        assert (Hpp : p_prompt q' = p_prompt q) by congruence. destruct (k_dry k).
        + open_same; [|intros _; apply ret_same]. intros h1 h2 u Hm _. split; [exact I|].
          destruct Hq' as [Hq'| ->]; [apply alike_would; [exact Hq'|split; [symmetry; exact Hpp|exact Hty]]|apply same_event; intros []].
        + destruct (decide (p_prompt p ∈ V)) as [HV|HV].
          * match goal with |- ssim (Vis ?e1 _) (Vis ?e2 _) => apply (sim_open e1 e2 (fun x => option_map (other (t_name t) [i]) x)) end.
            -- intros h1 h2 r Hm _. split; [exact I|]. destruct r; cbn [option_map]; [apply alike_answer|apply alike_refused]; rewrite ?Hp; assumption.
            -- intros [v|]; cbn [option_map]; [|apply ret_same]. open_same; [|intros _; apply ret_same].
               intros h1 h2 u Hm _. split; [exact I|apply alike_write; exact HV].
          * open_same.
            -- intros h1 h2 r Hm _. split; [exact I|]. destruct Hq' as [Hq'| ->]; [apply alike_question; [rewrite Hp; exact HV|exact Hpp|exact Hq']|].
               apply same_event. cbn. rewrite Hp. exact HV.
            -- intros [v|]; [|apply ret_same]. apply sim_same; [reflexivity|]. intros _. apply ret_same.
      - destruct (k_dry k); [apply sim_same; [reflexivity|intros _; apply ret_same]|].
        apply sim_read. intros vars vars' Ha. apply sim_alloc; [exact Ha|]. intros l'. apply sim_parallel; assumption.
    Qed.

    Lemma sim_items items t i x s l env a : tasks !! t_name t = Some t -> drop i (t_run t) = items -> env_safe t env ->
      ssim (execute_items k tasks rt items t i x s l env a) (execute_items k' tasks rt' items t i x s l env a).
    Proof.
      intros Ht Hi Hsafe. revert i x s Hi. induction items as [|it r IH]; intros i x s Hi; cbn [execute_items].
      - destruct x, s; apply ret_same.
      - assert (Hit : t_run t !! i = Some it) by (rewrite <- (Nat.add_0_r i), <- lookup_drop, Hi; reflexivity).
        assert (Hr : drop (S i) (t_run t) = r).
        { replace (S i) with (i + 1) by lia. rewrite <- drop_drop, Hi. reflexivity. }
        same_settings. apply sim_same; [reflexivity|]. intros [|]; [apply ret_same|].
        destruct (negb _); [apply sim_same; [reflexivity|intros _; apply IH; exact Hr]|]. cbv zeta.
        same_settings. match goal with |- ssim (match item_when it with [] => ?p | _ => _ end) (match item_when it with [] => ?p' | _ => _ end) => assert (Hgo : ssim p p') end.
        { apply sim_bind; [apply sim_item; assumption|]. intros r1 r2 HO.
          open_same; [intros h1 h2 u Hm _; split; [exact I|apply alike_ret; exact HO]|].
          intros _. destruct HO; [apply IH; exact Hr|apply ret_err; assumption]. }
        assert (Hw : ~ uses (item_when it)) by exact (cf_item _ _ _ Hconf _ t i it Ht Hit).
        destruct (item_when it) as [|c w]; [exact Hgo|]. apply sim_read. intros vars vars' Ha.
        rewrite (evaluate_agree V U (k_getenv k) getenv' Hget vars vars' _ Ha (known_text _ Hw) Hw).
        destruct (evaluate _ _ _) as [[|]|e]; [exact Hgo| |apply ret_same].
        apply sim_same; [reflexivity|]. intros _. apply IH. exact Hr.
    Qed.

    Lemma sim_task t a : tasks !! t_name t = Some t -> ssim (execute_task k tasks rt t a) (execute_task k' tasks rt' t a).
    Proof.
      intros Ht. unfold execute_task. same_settings. cbv zeta.
      assert (Hgo : forall l vars vars', agree vars vars' -> ssim
        (interpolate_env_then k (t_line t) vars (smap_get (merge_maps (k_env k) (t_env t))) (fun env => execute_items k tasks rt (t_run t) t 0 0 0 l env a))
        (interpolate_env_then k' (t_line t) vars' (smap_get (merge_maps (k_env k) (t_env t))) (fun env => execute_items k' tasks rt' (t_run t) t 0 0 0 l env a))).
      { assert (Hnot : forall x s, smap_get (merge_maps (k_env k) (t_env t)) !! x = Some s -> ~ uses s).
        { intros x s Hx Hu. apply merged_env in Hx as [Hx|Hx]; [exact (cf_env _ _ _ Hconf _ t x s Ht Hx Hu)|exact (cf_global _ _ _ Hconf x s Hx Hu)]. }
        intros l vars vars' Ha. apply sim_env; [exact Ha|intros x s Hx; apply known_text; exact (Hnot x s Hx)|]. intros m m' Hm (_ & _ & He). destruct He as [(x & s & Hx & Hu)|<-].
        - contradiction (Hnot x s Hx Hu).
        - apply sim_items; [exact Ht|apply drop_0|]. exact (env_is_safe t vars m Hm Ht). }
      destruct (t_vars t) as [vs|] eqn:Evs.
      - apply sim_keys. intros order Ho. apply sim_read. intros gl gl' Ha. cbn [resp] in order, gl, gl'.
        match goal with |- ssim (match ?x with Ok _ => _ | Err _ => _ end) (match ?y with Ok _ => _ | Err _ => _ end) =>
          assert (E : match x, y with Ok m, Ok m' => agree m m' | Err e, Err e' => e = e' | _, _ => False end)
            by exact (resolve_vars_agree V U (k_getenv k) getenv' Hget vs gl gl' Ha (fun z s Hx Hu => cf_vars _ _ _ Hconf _ t vs z s Ht Evs Hx Hu) (fun z s Hx => known_vars _ t vs z s Ht Evs Hx) HUV order Ho);
          destruct x as [m|], y as [m'|] end; try contradiction E; [|rewrite E; apply ret_same].
        apply sim_alloc; [exact E|]. intros l. apply Hgo. exact E.
      - apply sim_read. intros vars vars' Ha. apply Hgo. exact Ha.
    Qed.
    Lemma sim_deps n deps a q q' : ssim q q' -> ssim (run_deps rt n deps a q) (run_deps rt' n deps a q').
    Proof.
      intros Hq. induction deps as [|d r IH]; cbn [run_deps]; [exact Hq|].
      apply sim_and_then; [apply keep; intros; apply err_dep; assumption|apply Hrt|exact IH].
    Qed.
  End Calls.

  Lemma sim_run_task fuel : forall n a, ssim (run_task k tasks fuel n a) (run_task k' tasks fuel n a).
  Proof.
    induction fuel as [|f IH]; intros n a; cbn [run_task]; [apply ret_same|].
    apply sim_same; [reflexivity|]. intros [| |]; [|apply sim_same; [reflexivity|intros m; apply ret_same]|apply ret_same].
    destruct (tasks !! n) as [t|] eqn:Et; [|apply ret_same]. pose proof (Hkeyed n t Et) as Hn.
    assert (Ht : tasks !! t_name t = Some t) by (rewrite Hn; exact Et). cbv zeta.
    same_settings. match goal with |- ssim (match t_when t with [] => ?p | _ => _ end) (match t_when t with [] => ?p' | _ => _ end) => assert (Hbody : ssim p p') end.
    { match goal with |- ssim (if ?b then Vis ?e (fun _ => ?p) else _) (if _ then Vis _ (fun _ => ?p') else _) =>
        assert (Hrest : ssim p p'); [|destruct b; [apply sim_same; [reflexivity|]; intros _|]; exact Hrest] end.
      apply sim_deps; [exact IH|].
      assert (Hfin : ssim (Vis (EDone n) (fun _ => Ret None)) (Vis (EDone n) (fun _ => Ret None))) by (apply sim_same; [reflexivity|intros _; apply ret_same]).
      destruct (t_run t); [exact Hfin|]. apply sim_and_then; [apply keep; auto|apply sim_task; assumption|exact Hfin]. }
    pose proof (cf_when _ _ _ Hconf n t Et) as Hw. destruct (t_when t) as [|c w]; [exact Hbody|].
    apply sim_read. intros gl gl' Ha. rewrite (evaluate_agree V U (k_getenv k) getenv' Hget gl gl' _ Ha (known_text _ Hw) Hw).
    destruct (evaluate _ _ _) as [[|]|e]; [exact Hbody| |apply ret_same].
    apply sim_same; [reflexivity|]. intros _. apply sim_same; [reflexivity|]. intros _. apply ret_same.
  Qed.

  Lemma secret_run root h r : rtc (cstep g) ([], run_with_tasks k tasks root) (h, Ret r) ->
    exists h' r', rtc (cstep g') ([], run_with_tasks k' tasks root) (h', Ret r') /\ Forall2 alike h h' /\ O V r r'.
  Proof.
    intros Hrun.
    destruct (sim_run_end g g' alike (fun _ => False) eq (fun _ => True) (out_alike k tasks V)) with (p1 := run_with_tasks k tasks root) (p2 := run_with_tasks k' tasks root) (h1 := h) (r := r) as (h' & r' & Hrun' & Hm & Hr);
      try (intros; subst; apply same_event; intros []).
    - intros. apply alike_return. assumption.
    - intros h1 h2 c ? Hm <- Hc. rewrite <- (alike_cancelled h1 h2 c (matched_alike _ _ Hm)). exact Hc.
    - apply sim_run_task.
    - exact Hrun.
    - apply Forall_forall. intros; exact I.
    - exists h', r'. split; [exact Hrun'|]. split; [apply matched_alike; exact Hm|exact Hr].
  Qed.
  Lemma secret_prefix root h p : rtc (cstep g) ([], run_with_tasks k tasks root) (h, p) ->
    exists h' p', rtc (cstep g') ([], run_with_tasks k' tasks root) (h', p') /\ Forall2 alike h h'.
  Proof.
    intros Hrun.
    destruct (sim_run g g' alike (fun _ => False) eq (fun _ => True) (out_alike k tasks V)) with (p1 := run_with_tasks k tasks root) (p2 := run_with_tasks k' tasks root) (h1 := h) (p1' := p) as (h' & p' & Hrun' & Hm & _);
      try (intros; subst; apply same_event; intros []).
    - intros. apply alike_return. assumption.
    - intros h1 h2 c ? Hm <- Hc. rewrite <- (alike_cancelled h1 h2 c (matched_alike _ _ Hm)). exact Hc.
    - apply sim_run_task.
    - exact Hrun.
    - apply Forall_forall. intros; exact I.
    - exists h', p'. split; [exact Hrun'|]. apply matched_alike. exact Hm.
  Qed.
End Run.
