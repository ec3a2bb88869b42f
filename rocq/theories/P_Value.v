(** C94: the value of a variable, or of an environment variable, reaches only what refers to it. *)
From Verif Require Import Base Types_Model Interp_Model Interp_Spec Interp_Proof Vars_Proof Include_Model Include_Spec Run_Model Run_Spec Run_Proof Run_Main Run_Drive
  Sim_Proof Secret_Spec Secret_Proof Value_Spec P_Interp P_Run P_Run_Parse P_Dry P_Secret.

(** ** Values *)
Lemma expands_other (getenv getenv' : str -> str) (L L' : str -> str -> Prop) (V : gset str) ps o :
  (forall x, getenv' x = getenv x \/ lit "env." ++ x ∈ V) -> (forall n, n ∈ refs_of ps -> n ∉ V) ->
  (forall n v, n ∈ refs_of ps -> L n v -> L' n v) -> expands getenv L ps o -> expands getenv' L' ps o.
Proof.
  intros Hg. induction ps as [|[|n|c] ps IH] in o |- *; intros HV HL H; inversion H as [|? ? H1|? v ? ? Hm H1|? ? ? H1]; subst.
  - constructor.
  - constructor. apply IH; [exact HV|exact HL|exact H1].
  - constructor.
    + inversion Hm as [x|? ? Hne Hl]; subst.
      * destruct (Hg x) as [E|E]; [rewrite <- E; constructor|]. exfalso. apply (HV (lit "env." ++ x)); [left|exact E].
      * apply means_var; [exact Hne|]. apply HL; [left|exact Hl].
    + apply IH; [intros m Hin; apply HV; right; exact Hin|intros m w Hin; apply HL; right; exact Hin|exact H1].
  - constructor. apply IH; [exact HV|exact HL|exact H1].
Qed.

Section Values.
  Context (getenv getenv' : str -> str) (V U : gset str) (gv gv' : gmap str str) (Hrv : revalued V U gv gv').
  Context (Hg : forall x, getenv' x = getenv x \/ lit "env." ++ x ∈ V).

  Lemma value_kept n v : Val getenv gv ∅ n v -> n ∉ V -> Val getenv' gv' ∅ n v.
  Proof.
    revert n v. apply (Val_strong_ind getenv gv ∅ (fun n v => n ∉ V -> Val getenv' gv' ∅ n v)).
    - intros n raw ps v E Hr He Hn. assert (Hno : forall m, m ∈ refs_of ps -> m ∉ V).
      { intros m Hm HV. apply Hn. apply (rv_closed _ _ _ _ Hrv n raw E). exists ps, m. auto. }
      apply (Val_block _ _ _ n raw ps v); [rewrite <- (rv_others _ _ _ _ Hrv n Hn); exact E|exact Hr|].
      eapply expands_other; [exact Hg|exact Hno| |exact He]. intros m w Hm [_ IH]. apply IH. apply Hno. exact Hm.
    - intros n v _ E. rewrite lookup_empty in E. discriminate E.
  Qed.
End Values.
Lemma revalued_sym V U gv gv' : revalued V U gv gv' -> revalued V U gv' gv.
Proof.
  intros H. constructor.
  - intros x Hx. symmetry. apply (rv_others _ _ _ _ H x Hx).
  - intros x s Hx Hu. destruct (decide (x ∈ V)) as [HV|HV]; [exact HV|]. rewrite <- (rv_others _ _ _ _ H x HV) in Hx. exact (rv_closed _ _ _ _ H x s Hx Hu).
  - intros x Hx. symmetry. apply (rv_same _ _ _ _ H x Hx).
Qed.

Section Resolved.
  Context (getenv getenv' : str -> str) (V U : gset str) (gv gv' : gmap str str) (Hrv : revalued V U gv gv').
  Context (Hg : forall x, getenv' x = getenv x \/ lit "env." ++ x ∈ V).
  Context (Hn : forall x, nul_free (getenv x)) (Hn' : forall x, nul_free (getenv' x)) (Hv : all_nul_free gv) (Hv' : all_nul_free gv').

  Lemma values_agree o o' m m' : iteration_order gv o -> iteration_order gv' o' ->
    resolve_vars getenv (Some gv) None o = Ok m -> resolve_vars getenv' (Some gv') None o' = Ok m' -> agree V U m m'.
  Proof.
    intros Ho Ho' H H'. assert (He : all_nul_free (default ∅ (None : option (gmap str str)))) by (intros n v E; cbn in E; rewrite lookup_empty in E; discriminate E).
    apply (resolve_vars_iff _ _ _ _ _ Hn Hv He Ho) in H as (_ & Hall & Hm). apply (resolve_vars_iff _ _ _ _ _ Hn' Hv' He Ho') in H' as (_ & Hall' & Hm').
    cbn [default] in Hall, Hm, Hall', Hm'.
    assert (D : forall x, is_Some (m !! x) <-> is_Some (gv !! x)).
    { intros x. split.
      - intros [v Hx]. apply Hm in Hx. inversion Hx as [? raw ? ? E|? ? _ E]; subst; [eauto|]. rewrite lookup_empty in E. discriminate E.
      - intros Hx. destruct (Hall x Hx) as [v Hx']. exists v. apply Hm. exact Hx'. }
    assert (D' : forall x, is_Some (m' !! x) <-> is_Some (gv' !! x)).
    { intros x. split.
      - intros [v Hx]. apply Hm' in Hx. inversion Hx as [? raw ? ? E|? ? _ E]; subst; [eauto|]. rewrite lookup_empty in E. discriminate E.
      - intros Hx. destruct (Hall' x Hx) as [v Hx']. exists v. apply Hm'. exact Hx'. }
    assert (Hsame : forall x, x ∉ U -> is_Some (m !! x) <-> is_Some (m' !! x)) by (intros x Hx; rewrite D, D'; apply (rv_same _ _ _ _ Hrv x Hx)).
    intros x. destruct (m !! x) as [v|] eqn:E, (m' !! x) as [v'|] eqn:E'; [| | |exact I].
    - destruct (decide (x ∈ V)) as [HV|HV]; [left; exact HV|right]. apply Hm in E. apply (value_kept getenv getenv' V U gv gv' Hrv Hg x v) in E; [|exact HV].
      apply Hm' in E. congruence.
    - destruct (decide (x ∈ U)) as [HU|HU]; [exact HU|]. destruct (proj1 (Hsame x HU)) as [w Hw]; [eauto|]. congruence.
    - destruct (decide (x ∈ U)) as [HU|HU]; [exact HU|]. destruct (proj2 (Hsame x HU)) as [w Hw]; [eauto|]. congruence.
  Qed.
End Resolved.

Section C94.
  Context (k k' : config) (tasks : taskmap) (root : str) (V U : gset str) (gv gv' : gmap str str) (o o' : list str).
  Context (Hkeyed : keyed tasks) (Hch : changed k k' V) (Hconf : confined k tasks V).
  Context (Hrv : revalued V U gv gv') (HUV : U ⊆ V) (Hun : U = ∅ \/ unread k tasks U).
  Context (Ho : iteration_order gv o) (Ho' : iteration_order gv' o').
  Context (Hres : resolve_vars (k_getenv k) (Some gv) None o = Ok (k_vars k)) (Hres' : resolve_vars (k_getenv k') (Some gv') None o' = Ok (k_vars k')).
  Context (Hn : forall x, nul_free (k_getenv k x)) (Hn' : forall x, nul_free (k_getenv k' x)) (Hv : all_nul_free gv) (Hv' : all_nul_free gv').
  Notation given := (fun _ _ a => a : str).

  (** With the other values the run can go on as before, step by step, to the same end, and differs
      only in what the items that refer to them do. Answers to questions are the same. *)
  Theorem C94_same_but_for_value h r : run_of k tasks root h (Ret r) ->
    exists h' r', run_of k' tasks root h' (Ret r') /\ Forall2 (alike k k' tasks V U given) h h' /\ out_alike k tasks V r r'.
  Proof.
    intros Hr. apply (secret_run k tasks V U given k' Hch Hkeyed Hconf); [|exact HUV|exact Hun|exact Hr].
    exact (values_agree (k_getenv k) (k_getenv k') V U gv gv' Hrv (ch_getenv _ _ _ Hch) Hn Hn' Hv Hv' o o' _ _ Ho Ho' Hres Hres').
  Qed.
  Theorem C94_same_so_far h p : run_of k tasks root h p ->
    exists h' p', run_of k' tasks root h' p' /\ Forall2 (alike k k' tasks V U given) h h'.
  Proof.
    intros Hr. apply (secret_prefix k tasks V U given k' Hch Hkeyed Hconf) with (p := p); [|exact HUV|exact Hun|exact Hr].
    exact (values_agree (k_getenv k) (k_getenv k') V U gv gv' Hrv (ch_getenv _ _ _ Hch) Hn Hn' Hv Hv' o o' _ _ Ho Ho' Hres Hres').
  Qed.

  (** So an item that does not refer to them does the same, at the same point of the run. *)
  Theorem C94_others_untouched h r : run_of k tasks root h (Ret r) ->
    exists h' r', run_of k' tasks root h' (Ret r') /\ length h' = length h /\
      (forall i T pa q a, h !! i = Some (OPrompt T pa q a) -> exists q', h' !! i = Some (OPrompt T pa q' a) /\ (~ speaks k tasks V T pa -> q' = q)) /\
      (forall i x b, h !! i = Some (OStart x b) -> ~ speaks k tasks V (x_task x) (x_path x) -> exists x', h' !! i = Some (OStart x' b) /\
         x_task x' = x_task x /\ x_path x' = x_path x /\ x_cmd x' = x_cmd x /\ x_dir x' = x_dir x /\ x_show x' = x_show x /\ x_stdin x' = x_stdin x /\ x_out x' = x_out x /\
         exists e, x_environ x = k_environ k ++ e /\ x_environ x' = k_environ k' ++ e) /\
      (forall i T pa c d, h !! i = Some (OEcho T pa c d) -> ~ speaks k tasks V T pa -> h' !! i = Some (OEcho T pa c d)) /\
      (forall i T pa c lv d, h !! i = Some (OLog T pa c lv d) -> ~ speaks k tasks V T pa -> h' !! i = Some (OLog T pa c lv d)) /\
      (forall i T pa ok, h !! i = Some (OEnd T pa ok) -> h' !! i = Some (OEnd T pa ok)) /\
      (forall i T pa w, h !! i = Some (OSkip T pa w) -> h' !! i = Some (OSkip T pa w)) /\
      (forall i n, h !! i = Some (ODone n) -> h' !! i = Some (ODone n)).
  Proof.
    intros Hr. destruct (C94_same_but_for_value h r Hr) as (h' & r' & Hr' & Hal & _). exists h', r'. split; [exact Hr'|].
    split; [symmetry; exact (Forall2_length _ _ _ Hal)|].
    assert (G : forall i ev, h !! i = Some ev -> exists ev', h' !! i = Some ev' /\ alike k k' tasks V U given ev ev') by (intros i ev Hi; exact (Forall2_lookup_l _ _ _ i ev Hal Hi)).
    repeat split.
    - intros i T pa q a Hi. destruct (G i _ Hi) as (ev' & Hi' & Ha). inversion Ha; subst; eexists; (split; [exact Hi'|]); intros Hs; try reflexivity;
        match goal with H : _ \/ _ |- _ => destruct H; [contradiction Hs; assumption|assumption] | _ => contradiction Hs; assumption end.
    - intros i x b Hi Hs. destruct (G i _ Hi) as (ev' & Hi' & Ha). inversion Ha; subst.
      + match goal with H : ~ open_to_change _ _ |- _ => contradiction (H I) end.
      + eexists. split; [exact Hi'|]. do 7 (split; [reflexivity|]). eexists. split; reflexivity.
      + contradiction Hs; assumption.
    - intros i T pa c d Hi Hs. destruct (G i _ Hi) as (ev' & Hi' & Ha). inversion Ha; subst; [exact Hi'|contradiction Hs; assumption].
    - intros i T pa c lv d Hi Hs. destruct (G i _ Hi) as (ev' & Hi' & Ha). inversion Ha; subst; [exact Hi'|contradiction Hs; assumption].
    - intros i T pa ok Hi. destruct (G i _ Hi) as (ev' & Hi' & Ha). inversion Ha; subst; exact Hi'.
    - intros i T pa w Hi. destruct (G i _ Hi) as (ev' & Hi' & Ha). inversion Ha; subst; exact Hi'.
    - intros i n Hi. destruct (G i _ Hi) as (ev' & Hi' & Ha). inversion Ha; subst; exact Hi'.
  Qed.

  (** A variable that nothing refers to can be given any value, or left out: everything is done as before, with the same result. *)
  Theorem C94_unused h r : unread k tasks V -> run_of k tasks root h (Ret r) ->
    exists h', run_of k' tasks root h' (Ret r) /\ Forall2 (same_deed (k_environ k) (k_environ k')) h h'.
  Proof.
    intros Hnot Hr. destruct (C94_same_but_for_value h r Hr) as (h' & r' & Hr' & Hal & Hout).
    assert (Hs : forall T pa, ~ speaks k tasks V T pa) by (intros T pa (t & it & Ht & Hat & Hsp); exact (un_items _ _ _ Hnot T t pa it Ht Hat Hsp)).
    assert (Ge : forall e e', err_alike k tasks V e e' -> e' = e).
    { induction 1; try reflexivity; try (subst; reflexivity); exfalso; eapply Hs; eassumption. }
    assert (Go : forall r r', out_alike k tasks V r r' -> r' = r).
    { intros r1 r2 [|e e' He]; [reflexivity|]. rewrite (Ge e e' He). reflexivity. }
    exists h'. rewrite <- (Go r r' Hout). split; [exact Hr'|]. eapply Forall2_impl; [exact Hal|]. intros ev ev' Ha.
    destruct Ha; try (constructor; fail); try (constructor; intros ? ?; discriminate); try (exfalso; eapply Hs; eassumption).
    - constructor. intros x b ->. exact (H I).
    - destruct H1 as [H1| ->]; [exfalso; eapply Hs; exact H1|constructor; intros ? ?; discriminate].
    - destruct H1 as [H1| ->]; [exfalso; eapply Hs; exact H1|constructor; intros ? ?; discriminate].
    - rewrite (Go _ _ H). constructor; intros ? ?; discriminate.
    - rewrite (Go _ _ H). constructor; intros ? ?; discriminate.
  Qed.
End C94.
Print Assumptions C94_same_but_for_value. Print Assumptions C94_same_so_far. Print Assumptions C94_others_untouched. Print Assumptions C94_unused.

(** ** The environment of bab *)
Definition elsewhere (w : world) (getenv' : str -> str) (environ' : list str) : world :=
  World (w_fs w) (w_cwd w) (w_orc w) (w_grow w) (w_vorc w) (w_order w) getenv' environ' (w_os w) (w_terminal w).

Lemma value_exists (getenv getenv' : str -> str) gv n v : Val getenv gv ∅ n v -> exists v', Val getenv' gv ∅ n v'.
Proof.
  revert n v. apply (Val_strong_ind getenv gv ∅ (fun n _ => exists v', Val getenv' gv ∅ n v')).
  - intros n raw ps v E Hr He. assert (G : exists o, expands getenv' (Val getenv' gv ∅) ps o).
    { clear Hr E. induction He as [|ps o He [o' IH]|m w ps o Hm He [o' IH]|c ps o He [o' IH]].
      - eexists. constructor.
      - eexists. constructor. exact IH.
      - inversion Hm as [x|? ? Hne [_ [w' Hw]]]; subst; [exists (getenv' x ++ o'); constructor; [constructor|exact IH]|].
        exists (w' ++ o'). constructor; [apply means_var; [exact Hne|exact Hw]|exact IH].
      - eexists. constructor. exact IH. }
    destruct G as [o Ho]. exists o. eapply Val_block; eassumption.
  - intros n v _ E. rewrite lookup_empty in E. discriminate E.
Qed.

Section Environment.
  Context (w : world) (Hw : world_ok w) (Hord : forall m, iteration_order m (w_order w m)).
  Context (getenv' : str -> str) (environ' : list str) (dry : bool) (path name : str) (k : config) (tasks : taskmap) (root : str).
  Context (Hl : load w dry path name = Ok (k, tasks, root)) (r : presult) (Hp : parse (w_fs w) (w_orc w) (w_grow w) (w_vorc w) (w_cwd w) path = Ok r).
  Context (V : gset str) (HV : forall x, getenv' x = w_getenv w x \/ lit "env." ++ x ∈ V).
  Context (Hclosed : forall x s, smap_get (pr_vars r) !! x = Some s -> uses V s -> x ∈ V) (Hconf : confined k tasks V).
  Context (Hn : forall x, nul_free (w_getenv w x)) (Hn' : forall x, nul_free (getenv' x)) (Hv : all_nul_free (smap_get (pr_vars r))).

  (** In another environment the same Babfile loads too, and a run differs only in what the items do
      that refer to a variable of the environment which is another one there, and in what commands inherit. *)
  Theorem C94_environment : exists k', load (elsewhere w getenv' environ') dry path name = Ok (k', tasks, root) /\ k_environ k' = environ' /\
    (forall h o, run_of k tasks root h (Ret o) ->
       exists h' o', run_of k' tasks root h' (Ret o') /\ Forall2 (alike k k' tasks V ∅ (fun _ _ a => a)) h h' /\ out_alike k tasks V o o') /\
    (forall h p, run_of k tasks root h p -> exists h' p', run_of k' tasks root h' p' /\ Forall2 (alike k k' tasks V ∅ (fun _ _ a => a)) h h').
  Proof.
    destruct (load_inv _ _ _ _ _ _ _ Hl) as (r0 & vars & Hp0 & Hr & Ek & Et & En). rewrite Hp in Hp0. injection Hp0 as <-.
    set (gv := smap_get (pr_vars r)) in *. assert (Ho : iteration_order gv (w_order w gv)) by apply Hord.
    assert (Hnone : all_nul_free (default ∅ (None : option (gmap str str)))) by (intros n v E; cbn in E; rewrite lookup_empty in E; discriminate E).
    assert (Hsome : forall g m, resolve_vars g (pr_vars r) None (w_order w gv) = Ok m <-> resolve_vars g (Some gv) None (w_order w gv) = Ok m).
    { intros g m. clear -Ho. subst gv. destruct (pr_vars r) as [v|]; [reflexivity|].
      assert (E : w_order w ∅ = []) by (apply Permutation_nil_r; cbn [smap_get default] in Ho; unfold iteration_order in Ho; rewrite Ho, map_to_list_empty; reflexivity).
      change (resolve_vars g None None (w_order w ∅) = Ok m <-> resolve_vars g (Some ∅) None (w_order w ∅) = Ok m). rewrite E. reflexivity. }
    pose proof (proj1 (Hsome _ _) Hr) as Hr1.
    destruct (proj1 (resolve_vars_iff _ _ _ _ _ Hn Hv Hnone Ho) Hr1) as (Hac & Hall & _). cbn [default] in Hall.
    assert (Hex : exists vars', resolve_vars getenv' (Some gv) None (w_order w gv) = Ok vars').
    { destruct (resolve_vars getenv' (Some gv) None (w_order w gv)) as [m|e] eqn:E; [eauto|]. exfalso.
      apply (proj1 (C05_fails_iff_cycle_or_undefined getenv' gv None (w_order w gv) Hn' Hv Hnone Ho)); [eauto|]. split; [exact Hac|].
      intros n Hsn. destruct (Hall n Hsn) as [v Hval]. exact (value_exists _ getenv' _ _ _ Hval). }
    destruct Hex as [vars' Hr']. exists (loaded (elsewhere w getenv' environ') dry r vars').
    split; [unfold load; cbn [elsewhere w_fs w_orc w_grow w_vorc w_cwd w_getenv w_order]; rewrite Hp; fold gv; rewrite (proj2 (Hsome _ _) Hr'), Et, En; reflexivity|]. split; [reflexivity|].
    assert (Hch : changed k (loaded (elsewhere w getenv' environ') dry r vars') V) by (rewrite Ek; constructor; try reflexivity; exact HV).
    assert (Hrv : revalued V ∅ gv gv) by (constructor; [reflexivity|exact Hclosed|reflexivity]).
    assert (Hk : keyed tasks) by (rewrite Et; eapply parse_keyed; [apply Hw|apply Hw|exact Hp]).
    assert (Hg : k_getenv k = w_getenv w) by (rewrite Ek; reflexivity). assert (Hkv : k_vars k = vars) by (rewrite Ek; reflexivity).
    rewrite <- Hg in Hn, Hr1. rewrite <- Hkv in Hr1.
    split; intros h o Hrun.
    - eapply (C94_same_but_for_value k _ tasks root V ∅ gv gv _ _ Hk Hch Hconf Hrv (empty_subseteq V) (or_introl eq_refl) Ho Ho Hr1 Hr' Hn Hn' Hv Hv); exact Hrun.
    - eapply (C94_same_so_far k _ tasks root V ∅ gv gv _ _ Hk Hch Hconf Hrv (empty_subseteq V) (or_introl eq_refl) Ho Ho Hr1 Hr' Hn Hn' Hv Hv); exact Hrun.
  Qed.
End Environment.
Print Assumptions C94_environment.

(** ** A case *)
From Verif Require Import Valid_Model Path_Model P_Include Doc_Model Doc_Example Loc_Model Doc_Errors P_Place P_Where.
From Verif Require Import Secret_Spec Value_Spec.

(** What the cases have to check, by computation, where no task has an [env]. *)
Definition quietb (V : gset str) (k : config) (t : task) (it : run_item) : bool :=
  let no s := negb (usesb V s) in
  match it with
  | RCmd c => no (c_cmd c) && forallb (fun xs => no xs.2) (map_to_list (smap_get (c_env c))) && no (dir_given k t c) &&
              bool_decide (smap_get (t_env t) = ∅) && bool_decide (smap_get (k_env k) = ∅)
  | RLog l => no (l_log l)
  | RPrompt p => forallb no ([p_message p; p_default p; p_placeholder p] ++ p_options p ++ p_defaults p)
  | _ => true
  end.
Lemma quiet_by V k t it : quietb V k t it = true -> ~ item_speaks k V t it.
Proof.
  assert (Hn : forall s, negb (usesb V s) = true -> ~ uses V s) by (intros s H; apply usesb_false; destruct (usesb V s); [discriminate H|reflexivity]).
  destruct it as [c|r|l|p|o items]; cbn [quietb item_speaks]; try (intros _ []; fail).
  - intros H. repeat apply andb_prop in H as [H ?]. intros [Hu|[(x & s & Hx & Hu)|[Hu|(x & s & Hx & _)]]].
    + exact (Hn _ H Hu).
    + match goal with E : forallb _ _ = true |- _ => rewrite forallb_forall in E; specialize (E (x, s)); rewrite <- elem_of_list_In, elem_of_map_to_list in E; exact (Hn s (E Hx) Hu) end.
    + eapply Hn; eassumption.
    + repeat match goal with E : bool_decide _ = true |- _ => apply bool_decide_eq_true in E; rewrite E in Hx end. rewrite !lookup_empty in Hx. destruct Hx as [Hx|Hx]; discriminate Hx.
  - intros H. exact (Hn _ H).
  - intros H. rewrite forallb_forall in H.
    assert (Hs : forall s, s ∈ [p_message p; p_default p; p_placeholder p] ++ p_options p ++ p_defaults p -> ~ uses V s) by (intros s Hs; apply Hn, H, elem_of_list_In, Hs).
    intros [Hu|[Hu|[Hu|[(s & Hi & Hu)|(s & Hi & Hu)]]]].
    + apply (Hs (p_message p)); [left|exact Hu].
    + apply (Hs (p_default p)); [right; left|exact Hu].
    + apply (Hs (p_placeholder p)); [right; right; left|exact Hu].
    + apply (Hs s); [apply elem_of_app; right; apply elem_of_app; left; exact Hi|exact Hu].
    + apply (Hs s); [apply elem_of_app; right; apply elem_of_app; right; exact Hi|exact Hu].
Qed.
Definition unreadb (V : gset str) (k : config) (tasks : taskmap) : bool :=
  forallb (fun nt => forallb (fun xs => negb (usesb V xs.2)) (map_to_list (smap_get (t_vars nt.2))) &&
    forallb (fun it => quietb V k nt.2 it && match it with RPar _ items => forallb (quietb V k nt.2) items | _ => true end) (t_run nt.2)) (map_to_list tasks).
Lemma unread_by V k tasks : unreadb V k tasks = true -> unread k tasks V.
Proof.
  intros H. assert (Ht : forall T t, tasks !! T = Some t -> forallb (fun xs => negb (usesb V xs.2)) (map_to_list (smap_get (t_vars t))) = true /\
    forall it, it ∈ t_run t -> quietb V k t it && match it with RPar _ items => forallb (quietb V k t) items | _ => true end = true).
  { intros T t Ht. unfold unreadb in H. rewrite forallb_forall in H. specialize (H (T, t)). rewrite <- elem_of_list_In, elem_of_map_to_list in H. specialize (H Ht).
    apply andb_prop in H as [H1 H2]. split; [exact H1|]. intros it Hit. rewrite forallb_forall in H2. apply H2, elem_of_list_In, Hit. }
  constructor.
  - intros T t vs x s HT Hvs Hx. destruct (Ht T t HT) as [H1 _]. rewrite Hvs in H1. rewrite forallb_forall in H1. specialize (H1 (x, s)).
    rewrite <- elem_of_list_In, elem_of_map_to_list in H1. specialize (H1 Hx). apply usesb_false. change (negb (usesb V s) = true) in H1. destruct (usesb V s); [discriminate H1|reflexivity].
  - intros T t pa it HT Hat. destruct (Ht T t HT) as [_ H2]. apply quiet_by. destruct pa as [|i [|j [|]]]; try contradiction Hat.
    + apply elem_of_list_lookup_2 in Hat. apply H2 in Hat. apply andb_prop in Hat as [Hat _]. exact Hat.
    + destruct Hat as (o & items & Hi & Hj). apply elem_of_list_lookup_2 in Hi. apply H2 in Hi. apply andb_prop in Hi as [_ Hi].
      rewrite forallb_forall in Hi. apply Hi, elem_of_list_In. eapply elem_of_list_lookup_2. exact Hj.
Qed.

(** A Babfile with a version, which a tag is made from, and a variable nothing refers to. *)
Definition ship_vars (version : string) : gmap str str := {[lit "version" := lit version; lit "tag" := lit "app:${{ version }}"; lit "who" := lit "${{ env.USER }}"]}.
Definition ship_order : list str := [lit "tag"; lit "who"; lit "version"].
Definition user (u : string) (x : str) : str := if decide (x = lit "USER") then lit u else [].
Definition ship_conf (u : string) (vs : gmap str str) : config :=
  Config false (match resolve_vars (user u) (Some vs) None ship_order with Ok m => m | Err _ => ∅ end) None None None [] (user u) [lit "USER=" ++ lit u] (lit "linux") false.
Lemma ship_changed u u' vs vs' V : (forall x, user u' x = user u x \/ lit "env." ++ x ∈ V) -> changed (ship_conf u vs) (ship_conf u' vs') V.
Proof. intros H. unfold ship_conf. constructor; cbn [k_dry k_env k_silent k_output k_dir k_os k_terminal k_getenv]; try reflexivity. exact H. Qed.
Definition ship : taskmap := tm
  [mk "ship" (Some {[lit "push" := lit "push ${{ tag }}"]}) ["test"%string] [par 0 [cmd "docker build -t ${{ tag }} ."; cmd "lint"]; cmd "docker ${{ push }}"];
   mk "test" None [] [note "testing"; cmd "go test"]].
Definition ship_moves : list act :=
  Go [] 200 fine :: flat_map (fun j => [Do [] (MSlot j); Go [j] 100 fine; Do [] (MReturn j); Do [] (MFree j)]) [0; 1] ++ [Do [] MJoin; Go [] 60 fine].
Definition versions : gset str := {[lit "version"; lit "tag"; lit "push"]}.
Definition ship_run (k : config) := ran k ship (lit "ship") ship_moves.

Lemma nul_freeb s : bool_decide (nul_free s) = true -> nul_free s.
Proof. apply bool_decide_eq_true. Qed.
Lemma user_clean u : bool_decide ("000"%char ∉ lit u) = true -> forall x, nul_free (user u x).
Proof. intros H x. apply bool_decide_eq_true in H. unfold user. destruct (decide _); [exact H|intros Hx; inversion Hx]. Qed.
Lemma clean_by m : bool_decide (Forall (fun xv => "000"%char ∉ xv.2) (map_to_list m)) = true -> all_nul_free m.
Proof. intros H n v Hn. apply bool_decide_eq_true in H. rewrite Forall_forall in H. apply (H (n, v)). apply elem_of_map_to_list. exact Hn. Qed.
Definition revaluedb (V U : gset str) (gv gv' : gmap str str) : bool :=
  forallb (fun xs => (bool_decide (xs.1 ∈ V) || (negb (usesb V xs.2) && bool_decide (gv' !! xs.1 = Some xs.2))) && (bool_decide (xs.1 ∈ U) || bool_decide (is_Some (gv' !! xs.1)))) (map_to_list gv) &&
  forallb (fun xs => (bool_decide (xs.1 ∈ V) || bool_decide (gv !! xs.1 = Some xs.2)) && (bool_decide (xs.1 ∈ U) || bool_decide (is_Some (gv !! xs.1)))) (map_to_list gv').
Lemma revalued_by V U gv gv' : revaluedb V U gv gv' = true -> revalued V U gv gv'.
Proof.
  intros H. apply andb_prop in H as [H1 H2]. rewrite forallb_forall in H1, H2.
  assert (G1 : forall x s, gv !! x = Some s -> (x ∈ V \/ (~ uses V s /\ gv' !! x = Some s)) /\ (x ∈ U \/ is_Some (gv' !! x))).
  { intros x s Hx. specialize (H1 (x, s)). rewrite <- elem_of_list_In, elem_of_map_to_list in H1. specialize (H1 Hx). cbn [fst snd] in H1. apply andb_prop in H1 as [Ha Hb].
    apply orb_prop in Ha, Hb. split.
    - destruct Ha as [Ha|Ha]; [left; apply bool_decide_eq_true in Ha; exact Ha|right]. apply andb_prop in Ha as [Ha Hc]. split; [|apply bool_decide_eq_true in Hc; exact Hc].
      apply usesb_false. destruct (usesb V s); [discriminate Ha|reflexivity].
    - destruct Hb as [Hb|Hb]; apply bool_decide_eq_true in Hb; [left|right]; exact Hb. }
  assert (G2 : forall x s, gv' !! x = Some s -> (x ∈ V \/ gv !! x = Some s) /\ (x ∈ U \/ is_Some (gv !! x))).
  { intros x s Hx. specialize (H2 (x, s)). rewrite <- elem_of_list_In, elem_of_map_to_list in H2. specialize (H2 Hx). cbn [fst snd] in H2. apply andb_prop in H2 as [Ha Hb].
    apply orb_prop in Ha, Hb. split; [destruct Ha as [Ha|Ha]; apply bool_decide_eq_true in Ha|destruct Hb as [Hb|Hb]; apply bool_decide_eq_true in Hb]; auto. }
  constructor.
  - intros x Hx. destruct (gv !! x) as [s|] eqn:E.
    + destruct (G1 x s E) as [[HV|[_ Hs]] _]; [contradiction (Hx HV)|symmetry; exact Hs].
    + destruct (gv' !! x) as [s|] eqn:E'; [|reflexivity]. destruct (G2 x s E') as [[HV|Hs] _]; [contradiction (Hx HV)|congruence].
  - intros x s Hx Hu. destruct (G1 x s Hx) as [[HV|[Hs _]] _]; [exact HV|contradiction (Hs Hu)].
  - intros x Hx. split; intros [s Hs].
    + destruct (G1 x s Hs) as [_ [HU|Hi]]; [contradiction (Hx HU)|exact Hi].
    + destruct (G2 x s Hs) as [_ [HU|Hi]]; [contradiction (Hx HU)|exact Hi].
Qed.
Definition resolvesb (g : str -> str) (gv : gmap str str) (o : list str) (m : gmap str str) : bool :=
  match resolve_vars g (Some gv) None o with Ok m' => bool_decide (m' = m) | Err _ => false end.
Lemma resolves_by g gv o m : resolvesb g gv o m = true -> resolve_vars g (Some gv) None o = Ok m.
Proof. unfold resolvesb. destruct (resolve_vars _ _ _ _) as [m'|]; [|discriminate]. intros H. apply bool_decide_eq_true in H as ->. reflexivity. Qed.
Lemma order_by (gv : gmap str str) o : bool_decide (NoDup o /\ length o = size gv /\ Forall (fun x => is_Some (gv !! x)) o) = true -> iteration_order gv o.
Proof.
  intros H. apply bool_decide_eq_true in H as (Hnd & Hlen & Hall). unfold iteration_order.
  assert (Hsub : o ⊆+ (map_to_list gv).*1).
  { apply NoDup_submseteq; [exact Hnd|]. intros x Hx. rewrite Forall_forall in Hall. destruct (Hall x Hx) as [v Hv]. apply elem_of_list_fmap. exists (x, v). split; [reflexivity|apply elem_of_map_to_list; exact Hv]. }
  apply submseteq_Permutation_length_eq; [rewrite fmap_length, Hlen; reflexivity|exact Hsub].
Qed.

(** With another version, only the build and the push are other commands; where [who] is another one, nothing is. *)
Example C94_met :
  let k := ship_conf "ann" (ship_vars "1") in let k2 := ship_conf "ann" (ship_vars "2") in let kb := ship_conf "bob" (ship_vars "1") in
  keyed ship /\ changed k k2 versions /\ confined k ship versions /\ revalued versions ∅ (ship_vars "1") (ship_vars "2") /\
  iteration_order (ship_vars "1") ship_order /\ iteration_order (ship_vars "2") ship_order /\
  resolve_vars (k_getenv k) (Some (ship_vars "1")) None ship_order = Ok (k_vars k) /\ resolve_vars (k_getenv k2) (Some (ship_vars "2")) None ship_order = Ok (k_vars k2) /\
  all_nul_free (ship_vars "1") /\ all_nul_free (ship_vars "2") /\ (forall x, nul_free (k_getenv k x)) /\
  run_of k ship (lit "ship") (ship_run k).1 (Ret None) /\ run_of k2 ship (lit "ship") (ship_run k2).1 (Ret None) /\
  map fst (starts (ship_run k).1) = [lit "go test"; lit "docker build -t app:1 ."; lit "lint"; lit "docker push app:1"] /\
  map fst (starts (ship_run k2).1) = [lit "go test"; lit "docker build -t app:2 ."; lit "lint"; lit "docker push app:2"] /\
  changed k kb {[lit "who"; lit "env.USER"]} /\ confined k ship {[lit "who"; lit "env.USER"]} /\ unread k ship {[lit "who"; lit "env.USER"]} /\
  revalued {[lit "who"; lit "env.USER"]} ∅ (ship_vars "1") (ship_vars "1") /\ k_vars kb <> k_vars k /\
  starts (ship_run kb).1 = map (fun ce => (ce.1, lit "USER=bob" :: drop 1 ce.2)) (starts (ship_run k).1).
Proof.
  cbv zeta. split; [apply keyed_by; vm_compute; reflexivity|]. split; [apply ship_changed; intros x; left; reflexivity|].
  split; [apply confined_by; vm_compute; reflexivity|]. split; [apply revalued_by; vm_compute; reflexivity|].
  split; [apply order_by; vm_compute; reflexivity|]. split; [apply order_by; vm_compute; reflexivity|].
  split; [apply resolves_by; vm_compute; reflexivity|]. split; [apply resolves_by; vm_compute; reflexivity|].
  split; [apply clean_by; vm_compute; reflexivity|]. split; [apply clean_by; vm_compute; reflexivity|]. split; [apply user_clean; vm_compute; reflexivity|].
  split; [apply finished; vm_compute; reflexivity|]. split; [apply finished; vm_compute; reflexivity|].
  split; [vm_compute; reflexivity|]. split; [vm_compute; reflexivity|].
  split; [apply ship_changed; intros x; destruct (decide (x = lit "USER")) as [->|Hx]; [right; apply elem_of_union_r, elem_of_singleton; reflexivity|left; unfold user; rewrite !decide_False by exact Hx; reflexivity]|].
  split; [apply confined_by; vm_compute; reflexivity|]. split; [apply unread_by; vm_compute; reflexivity|]. split; [apply revalued_by; vm_compute; reflexivity|].
  split; [|vm_compute; reflexivity]. intros H. assert (E : bool_decide (k_vars (ship_conf "bob" (ship_vars "1")) = k_vars (ship_conf "ann" (ship_vars "1"))) = false) by (vm_compute; reflexivity).
  apply bool_decide_eq_false in E. exact (E H).
Qed.

(** A file of which one task refers to the environment. *)
Definition where_doc : node := mp 1 [kv 1 "vars" (mp 2 [kv 2 "to" (sc 2 "${{ env.HOST }}")]); kv 3 "tasks" (mp 4 [
  kv 4 "push" (mp 5 [kv 5 "deps" (seq 5 [sc 5 "test"]); kv 6 "run" (seq 6 [mp 6 [kv 6 "cmd" (sc 6 "scp out ${{ to }}:")]])]);
  kv 8 "test" (mp 9 [kv 9 "run" (seq 9 [mp 9 [kv 9 "cmd" (sc 9 "go test")]])])])].
Definition host (u : string) (x : str) : str := if decide (x = lit "HOST") then lit u else [].
Definition where_world (h : string) : world :=
  World (decoded (Y2 where_doc where_doc) {[lit "/r/Babfile" := lit "a"]}) (lit "/r") fwd go_grow vfwd key_order (host h) [lit "HOST=" ++ lit h] (lit "linux") false.
Definition where_names : gset str := {[lit "to"; lit "env.HOST"]}.
Definition where_starts (h : string) : option (list (str * list str)) :=
  match load (where_world h) false (lit "Babfile") (lit "push") with
  | Ok (k, tasks, root) => match ran k tasks root [Go [] 90 fine] with (hs, Ret None) => Some (starts hs) | _ => None end
  | Err _ => None
  end.
Example C94_environment_met :
  (forall x, host "b" x = w_getenv (where_world "a") x \/ lit "env." ++ x ∈ where_names) /\
  (exists k tasks root r, load (where_world "a") false (lit "Babfile") (lit "push") = Ok (k, tasks, root) /\
     parse (w_fs (where_world "a")) fwd go_grow vfwd (lit "/r") (lit "Babfile") = Ok r /\ confined k tasks where_names /\
     (forall x s, smap_get (pr_vars r) !! x = Some s -> uses where_names s -> x ∈ where_names) /\ all_nul_free (smap_get (pr_vars r))) /\
  elsewhere (where_world "a") (host "b") [lit "HOST=b"] = where_world "b" /\
  where_starts "a" = Some [(lit "go test", [lit "HOST=a"]); (lit "scp out a:", [lit "HOST=a"])] /\
  where_starts "b" = Some [(lit "go test", [lit "HOST=b"]); (lit "scp out b:", [lit "HOST=b"])].
Proof.
  split; [|split; [|split; [reflexivity|split; vm_compute; reflexivity]]].
  { intros x. destruct (decide (x = lit "HOST")) as [->|Hx]; [right; apply elem_of_union_r, elem_of_singleton; reflexivity|]. left. unfold host. cbn [where_world w_getenv]. unfold host. rewrite !decide_False by exact Hx. reflexivity. }
  assert (C : match load (where_world "a") false (lit "Babfile") (lit "push"), parse (w_fs (where_world "a")) fwd go_grow vfwd (lit "/r") (lit "Babfile") with
    | Ok (k, tasks, root), Ok r => confinedb k tasks where_names && revaluedb where_names ∅ (smap_get (pr_vars r)) (smap_get (pr_vars r)) && bool_decide (Forall (fun xv => "000"%char ∉ xv.2) (map_to_list (smap_get (pr_vars r))))
    | _, _ => false end = true) by (vm_compute; reflexivity).
  destruct (load _ _ _ _) as [[[k tasks] root]|] eqn:El; [|discriminate C]. destruct (parse _ _ _ _ _ _) as [r|]; [|discriminate C].
  apply andb_prop in C as [C C3]. apply andb_prop in C as [C1 C2]. exists k, tasks, root, r. split; [reflexivity|]. split; [reflexivity|]. split; [apply confined_by; exact C1|].
  split; [exact (rv_closed _ _ _ _ (revalued_by _ _ _ _ C2))|apply clean_by; exact C3].
Qed.

(** ** What does not hold *)
(** No text refers to [pw], and yet it matters that it is there: a text of the environment of a task
    is filled in twice, and what a variable writes as [$${{ pw }}] is a reference the second time. *)
Definition twice_vars (pw : bool) : gmap str str := (if pw then <[lit "pw" := lit "s"]> else id) {[lit "name" := lit "$${{ pw }}"]}.
Definition twice_order (pw : bool) : list str := lit "name" :: (if pw then [lit "pw"] else []).
Definition twice_conf (pw : bool) : config :=
  Config false (match resolve_vars (fun _ => []) (Some (twice_vars pw)) None (twice_order pw) with Ok m => m | Err _ => ∅ end) None None None [] (fun _ => []) [] (lit "linux") false.
Theorem C94_twice_refuted : exists k k' tasks root V gv gv' o o' h h' e, keyed tasks /\ changed k k' V /\ confined k tasks V /\ revalued V V gv gv' /\
  iteration_order gv o /\ iteration_order gv' o' /\ resolve_vars (k_getenv k) (Some gv) None o = Ok (k_vars k) /\ resolve_vars (k_getenv k') (Some gv') None o' = Ok (k_vars k') /\
  (forall T t pa c, tasks !! T = Some t -> item_at t pa (RCmd c) -> ~ uses V (c_cmd c) /\ smap_get (c_env c) = ∅ /\ ~ uses V (dir_given k t c)) /\
  (forall T t x s, tasks !! T = Some t -> smap_get (t_env t) !! x = Some s -> ~ uses V s) /\ (forall x s, gv !! x = Some s -> ~ uses V s) /\
  run_of k tasks root h (Ret None) /\ run_of k' tasks root h' (Ret (Some e)) /\ exists line x, e = REnv line (EVarNotFound x) /\ x ∈ V.
Proof.
  assert (He : result (ran (twice_conf false) quoting (lit "build") [Go [] 60 fine]).2 = Some (Some (REnv 1 (EVarNotFound (lit "pw"))))) by (vm_compute; reflexivity).
  assert (Hq : forall T t, quoting !! T = Some t -> t = default t (quoting !! lit "build")).
  { intros T t Ht. unfold quoting, tm in Ht |- *. cbn [map list_to_map foldr fst snd] in Ht |- *. apply lookup_insert_Some in Ht as [[_ <-]|[_ Ht]]; [rewrite lookup_insert; reflexivity|rewrite lookup_empty in Ht; discriminate Ht]. }
  exists (twice_conf true), (twice_conf false), quoting, (lit "build"), {[lit "pw"]}, (twice_vars true), (twice_vars false), (twice_order true), (twice_order false).
  eexists (ran (twice_conf true) quoting (lit "build") [Go [] 60 fine]).1, (ran (twice_conf false) quoting (lit "build") [Go [] 60 fine]).1, _.
  split; [apply keyed_by; vm_compute; reflexivity|]. split; [unfold twice_conf; constructor; cbn [k_dry k_env k_silent k_output k_dir k_os k_terminal k_getenv]; try reflexivity; intros x; left; reflexivity|].
  split; [apply confined_by; vm_compute; reflexivity|]. split; [apply revalued_by; vm_compute; reflexivity|].
  split; [apply order_by; vm_compute; reflexivity|]. split; [apply order_by; vm_compute; reflexivity|].
  split; [apply resolves_by; vm_compute; reflexivity|]. split; [apply resolves_by; vm_compute; reflexivity|].
  split; [|split; [|split; [|split; [apply finished; vm_compute; reflexivity|split; [apply finished; exact He|]]]]].
  - intros T t pa c Ht Hat. rewrite (Hq T t Ht) in Hat |- *. clear T Ht. unfold quoting, tm in Hat |- *. cbn [map list_to_map foldr fst snd] in Hat |- *. rewrite lookup_insert in Hat |- *. cbn [default] in Hat |- *.
    destruct pa as [|i [|j [|]]]; try contradiction Hat.
    + destruct i as [|i]; [|discriminate Hat]. injection Hat as <-. split; [apply usesb_false; vm_compute; reflexivity|]. split; [reflexivity|apply usesb_false; vm_compute; reflexivity].
    + destruct Hat as (p & items & H & _). destruct i; discriminate H.
  - intros T t x s Ht Hx. rewrite (Hq T t Ht) in Hx. unfold quoting, tm in Hx. cbn [map list_to_map foldr fst snd] in Hx. rewrite lookup_insert in Hx. cbn in Hx.
    apply lookup_singleton_Some in Hx as [_ <-]. apply usesb_false. vm_compute. reflexivity.
  - intros x s Hx. unfold twice_vars in Hx. apply lookup_insert_Some in Hx as [[_ <-]|[_ Hx]]; [apply usesb_false; vm_compute; reflexivity|].
    apply lookup_singleton_Some in Hx as [_ <-]. apply usesb_false. vm_compute. reflexivity.
  - exists 1, (lit "pw"). split; [reflexivity|apply elem_of_singleton; reflexivity].
Qed.
Print Assumptions C94_twice_refuted.
