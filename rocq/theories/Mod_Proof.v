(** A run of a task and the run of the same task through an include simulate each other. *)
From Verif Require Import Base Types_Model Path_Model Interp_Model Interp_Spec Interp_Proof Vars_Proof Cond_Model Valid_Spec Include_Model
  Run_Model Run_Spec Run_Logic Run_Inv Run_Proof Run_Facts P_Run P_Run_Parse Sim_Proof Secret_Proof Mod_Sim Mod_Spec Mod_Vars.

Lemma pre_inj ns a b : prefixed ns a = prefixed ns b -> a = b.
Proof. unfold prefixed. intros H. apply app_inv_head in H. injection H as ->. reflexivity. Qed.

Section Mod.
  Context (ns : str) (r : presult) (k1 k2 : config) (tasks1 tasks2 : taskmap) (root : str) (o0 : list str).
  Notation pre := (prefixed ns).
  Definition inc (t : task) : task := include_task ns r (t_name t) t.
  Context (Hk1 : keyed tasks1).
  (** The including file has no settings of its own. *)
  Context (Hdry : k_dry k2 = k_dry k1) (Hvars2 : k_vars k2 = ∅) (Henv2 : smap_get (k_env k2) = ∅) (Hsil2 : k_silent k2 = None)
    (Hout2 : k_output k2 = None) (Hdir2 : k_dir k2 = []) (Hget : k_getenv k2 = k_getenv k1) (Henviron : k_environ k2 = k_environ k1)
    (Hos : k_os k2 = k_os k1) (Hterm : k_terminal k2 = k_terminal k1).
  (** The included file is as when it is the only one. *)
  Context (Henv1 : k_env k1 = pr_env r) (Hsil1 : k_silent k1 = pr_silent r) (Hout1 : k_output k1 = pr_output r) (Hdir1 : k_dir k1 = pr_dir r).
  Context (Htasks : forall n, tasks2 !! pre n = inc <$> tasks1 !! n) (Hall2 : forall m t, tasks2 !! m = Some t -> exists n, m = pre n)
    (Hsize : size tasks2 = size tasks1).
  Notation fv := (smap_get (pr_vars r)).
  Context (Hpo : portable fv tasks1 root).
  Context (Hgn : forall x, nul_free (k_getenv k1 x)) (Hfn : all_nul_free fv)
    (Htn : forall T t, tasks1 !! T = Some t -> all_nul_free (smap_get (t_vars t))).
  Context (Ho0 : iteration_order fv o0) (Hres : resolve_vars (k_getenv k1) (Some fv) None o0 = Ok (k_vars k1)).

  Notation good1 := (good (k_vars k1) (step_ok k1 tasks1 root)).
  Notation good2 := (good (k_vars k2) (step_ok k2 tasks2 (pre root))).

  Lemma keyed2 : keyed tasks2.
  Proof.
    intros m t Hm. destruct (Hall2 m t Hm) as (n & ->). rewrite Htasks in Hm. destruct (tasks1 !! n) as [t'|] eqn:E; [|discriminate Hm].
    injection Hm as <-. cbn. rewrite (Hk1 n t' E). reflexivity.
  Qed.

  Definition M (e1 e2 : event) : Prop :=
    match e1, e2 with
    | OOrder _ _, OOrder _ _ | ORead _ _ _ _, ORead _ _ _ _ | OWrite _ _ _ _ _, OWrite _ _ _ _ _ => True
    | OAlloc t p m _, OAlloc t' p' m' _ => t' = pre t /\ p' = p /\ m' = m
    | _, _ => same_event pre e1 e2
    end.
  Definition quiet1 (ev : event) : Prop := exists m l, ev = OOrder m l.
  Definition quiet2 (ev : event) : Prop :=
    quiet1 ev \/ exists T t m l, tasks1 !! T = Some t /\ t_vars t = None /\ ev = OAlloc (pre T) [] m l.
  Notation matched := (matched M quiet1 quiet2).

  (** ** What corresponding histories have in common *)
  Lemma M_told e1 e2 : M e1 e2 -> inner e1 = inner e2 /\ (inner e1 = false -> same_event pre e1 e2).
  Proof. destruct e1, e2; cbn; intros H; try contradiction H; (split; [reflexivity|]); intros E; try discriminate E; exact H. Qed.
  Lemma matched_same h1 h2 : matched h1 h2 -> same_history pre h1 h2.
  Proof.
    unfold same_history, told. induction 1 as [|e1 e2 h1 h2 H Hm IH|e1 h1 h2 (m & l & ->) Hm IH|e2 h1 h2 [(m & l & ->)|(T & t & m & l & _ & _ & ->)] Hm IH];
      [constructor| |exact IH..]. cbn [List.filter]. destruct (M_told _ _ H) as [E Hs]. rewrite <- E. destruct (inner e1); cbn; [exact IH|].
    constructor; [apply Hs; reflexivity|exact IH].
  Qed.
  Lemma matched_status h1 h2 n : matched h1 h2 -> status_of h1 n = status_of h2 (pre n).
  Proof.
    induction 1 as [|e1 e2 h1 h2 H Hm IH|e1 h1 h2 (m & l & ->) Hm IH|e2 h1 h2 [(m & l & ->)|(T & t & m & l & _ & _ & ->)] Hm IH];
      [reflexivity| |exact IH..].
    destruct e1, e2; cbn in H; try contradiction H; cbn [status_of]; try exact IH.
    - destruct H as [-> ->]. destruct s; [|exact IH..]. destruct (decide (n0 = n)) as [->|Hne]; [rewrite decide_True by reflexivity; reflexivity|].
      rewrite decide_False by (intros E; apply pre_inj in E; contradiction). exact IH.
    - subst n1. destruct (decide (n0 = n)) as [->|Hne]; [rewrite decide_True by reflexivity; reflexivity|].
      rewrite decide_False by (intros E; apply pre_inj in E; contradiction). exact IH.
  Qed.
  Lemma matched_cancelled h1 h2 c : matched h1 h2 -> cancelledb h1 c = cancelledb h2 c.
  Proof.
    induction 1 as [|e1 e2 h1 h2 H Hm IH|e1 h1 h2 (m & l & ->) Hm IH|e2 h1 h2 [(m & l & ->)|(T & t & m & l & _ & _ & ->)] Hm IH];
      [reflexivity| |exact IH..].
    destruct e1, e2; cbn in H; try contradiction H; cbn [cancelledb]; try exact IH. subst. rewrite IH. reflexivity.
  Qed.
  Lemma matched_contexts h1 h2 : matched h1 h2 -> contexts h1 = contexts h2.
  Proof.
    induction 1 as [|e1 e2 h1 h2 H Hm IH|e1 h1 h2 (m & l & ->) Hm IH|e2 h1 h2 [(m & l & ->)|(T & t & m & l & _ & _ & ->)] Hm IH];
      [reflexivity| |exact IH..].
    destruct e1, e2; cbn in H; try contradiction H; cbn [contexts]; try exact IH. rewrite IH. reflexivity.
  Qed.
  Lemma matched_fwd h1 h2 e1 : matched h1 h2 -> e1 ∈ h1 -> ~ quiet1 e1 -> exists e2, e2 ∈ h2 /\ M e1 e2.
  Proof.
    induction 1 as [|e e2 h1 h2 H Hm IH|e h1 h2 Hq Hm IH|e2 h1 h2 Hq Hm IH]; intros Hin Hn.
    - inversion Hin.
    - apply elem_of_cons in Hin as [->|Hin]; [exists e2; split; [left|exact H]|]. destruct (IH Hin Hn) as (e' & H1 & H2). exists e'. split; [right; exact H1|exact H2].
    - apply elem_of_cons in Hin as [->|Hin]; [contradiction (Hn Hq)|]. apply IH; assumption.
    - destruct (IH Hin Hn) as (e' & H1 & H2). exists e'. split; [right; exact H1|exact H2].
  Qed.
  Lemma matched_bwd h1 h2 e2 : matched h1 h2 -> e2 ∈ h2 -> ~ quiet2 e2 -> exists e1, e1 ∈ h1 /\ M e1 e2.
  Proof.
    induction 1 as [|e e' h1 h2 H Hm IH|e h1 h2 Hq Hm IH|e' h1 h2 Hq Hm IH]; intros Hin Hn.
    - inversion Hin.
    - apply elem_of_cons in Hin as [->|Hin]; [exists e; split; [left|exact H]|]. destruct (IH Hin Hn) as (e'' & H1 & H2). exists e''. split; [right; exact H1|exact H2].
    - destruct (IH Hin Hn) as (e'' & H1 & H2). exists e''. split; [right; exact H1|exact H2].
    - apply elem_of_cons in Hin as [->|Hin]; [contradiction (Hn Hq)|]. apply IH; assumption.
  Qed.
  Lemma matched_prompt h1 h2 T i q a : matched h1 h2 -> OPrompt T [i] q a ∈ h1 <-> OPrompt (pre T) [i] q a ∈ h2.
  Proof.
    intros Hm. split; intros H.
    - destruct (matched_fwd _ _ _ Hm H) as (e2 & H2 & HM); [intros (?&?&E); discriminate E|].
      destruct e2; cbn in HM; try contradiction HM. destruct HM as (-> & -> & -> & ->). exact H2.
    - destruct (matched_bwd _ _ _ Hm H) as (e1 & H1 & HM); [intros [(?&?&E)|(?&?&?&?&_&_&E)]; discriminate E|].
      destruct e1; cbn in HM; try contradiction HM. destruct HM as (E & <- & <- & <-). apply pre_inj in E as <-. exact H1.
  Qed.

  (** ** Variables *)
  Lemma claim_rtc h T sc s : good1 h -> OClaim T sc s ∈ h -> rtc (edge tasks1) root T.
  Proof. intros Hg Hin. destruct (good_in _ _ _ _ Hg Hin) as (h1 & _ & _ & _ & [_ [_ H]]). eapply reached_rtc. exact H. Qed.
  Lemma prompt_rtc h T pa q a : good1 h -> OPrompt T pa q a ∈ h -> rtc (edge tasks1) root T.
  Proof.
    intros Hg Hin. destruct (good_in _ _ _ _ Hg Hin) as (h0 & Hs & _). pose proof (good_suffix _ _ _ _ Hs Hg) as Hg0.
    destruct (act_claim _ _ _ _ _ _ Hg0 eq_refl) as (sc & Hc). cbn in Hc. apply good_tail in Hg0 as (Hg0 & _). eapply claim_rtc; eassumption.
  Qed.
  Lemma asks_runs k tasks h T pa p : runs k tasks h T pa (RPrompt p) -> forall i, pa = [i] -> exists t, tasks !! T = Some t /\ asks t /\ t_run t !! i = Some (RPrompt p).
  Proof. intros (t & Ht & Hat & _) i ->. cbn in Hat. exists t. split; [exact Ht|]. split; [exists p; eapply elem_of_list_lookup_2; exact Hat|exact Hat]. Qed.

  Lemma heap0_1 h : good1 h -> heap_of (k_vars k1) h 0 = k_vars k1.
  Proof.
    induction h as [|ev h IH]; intros Hg; [reflexivity|]. pose proof Hg as Hg0. apply good_tail in Hg as (Hg & Hal & [_ HB]). specialize (IH Hg).
    destruct ev; cbn [heap_of]; try exact IH.
    - cbn in Hal. rewrite decide_False by (rewrite Hal; discriminate). exact IH.
    - destruct (decide (l = 0)) as [->|]; [|exact IH]. exfalso. destruct HB as (t' & i & pr & q & -> & Ht & Hr & _ & Hp & _ & Hv).
      destruct (asks_runs _ _ _ _ _ _ Hr i eq_refl) as (t2 & Ht2 & Hask & _). rewrite Ht in Ht2. injection Ht2 as <-.
      pose proof (po_asks _ _ _ Hpo t t' (prompt_rtc _ _ _ _ _ Hg Hp) Ht Hask) as Hn. destruct (t_vars t') as [vs|]; [|contradiction (Hn eq_refl)].
      destruct Hv as (m & Hm). apply (alloc_range _ _ _ _ _ _ _ _ Hg) in Hm. lia.
  Qed.
  Lemma heap0_2 h : good2 h -> heap_of (k_vars k2) h 0 = ∅.
  Proof.
    induction h as [|ev h IH]; intros Hg; [exact Hvars2|]. pose proof Hg as Hg0. apply good_tail in Hg as (Hg & Hal & [_ HB]). specialize (IH Hg).
    destruct ev; cbn [heap_of]; try exact IH.
    - cbn in Hal. rewrite decide_False by (rewrite Hal; discriminate). exact IH.
    - destruct (decide (l = 0)) as [->|]; [|exact IH]. exfalso. destruct HB as (t' & i & pr & q & -> & Ht & Hr & _ & Hp & _ & Hv).
      destruct (Hall2 _ _ Ht) as (n & ->). rewrite Htasks in Ht. destruct (tasks1 !! n); [|discriminate Ht]. injection Ht as <-. cbn in Hv.
      destruct Hv as (m & Hm). apply (alloc_range _ _ _ _ _ _ _ _ Hg) in Hm. lia.
  Qed.
  Lemma globals_1 h m : good1 h -> globals_once k1 h m -> m = k_vars k1.
  Proof. intros Hg (h' & Hs & ->). apply heap0_1. eapply good_suffix; eassumption. Qed.
  Lemma globals_2 h m : good2 h -> globals_once k2 h m -> m = ∅.
  Proof. intros Hg (h' & Hs & ->). apply heap0_2. eapply good_suffix; eassumption. Qed.

  Lemma no_vars_same order m : iteration_order (smap_get (merge_maps (pr_vars r) None)) order ->
    resolve_vars (k_getenv k1) (merge_maps (pr_vars r) None) (Some ∅) order = Ok m <-> m = k_vars k1.
  Proof.
    unfold merge_maps. cbn [smap_get default]. rewrite map_empty_union. intros Ho.
    assert (Hne : all_nul_free (∅ : gmap str str)) by (intros n v H; rewrite lookup_empty in H; discriminate H).
    assert (H0 : resolve_vars (k_getenv k1) (Some fv) (Some ∅) order = Ok (k_vars k1)).
    { apply (resolve_vars_iff (k_getenv k1) fv (Some ∅) order _ Hgn Hfn Hne Ho). apply (resolve_vars_iff (k_getenv k1) fv None o0 _ Hgn Hfn Hne Ho0). exact Hres. }
    rewrite H0. split; [intros E; injection E as ->; reflexivity|intros ->; reflexivity].
  Qed.

  Lemma prompt_skip k tasks rt h T i q a w : good (k_vars k) (step_ok k tasks rt) h -> OPrompt T [i] q a ∈ h -> OSkip T [i] w ∈ h -> False.
  Proof.
    intros Hg Hp Hs. destruct (skip_owned _ _ _ _ _ _ _ _ [] false Hg Hs Hp eq_refl) as [E|[(?&?&E)|(h2 & H1 & H2)]]; [discriminate E|discriminate E|].
    pose proof (good_suffix _ _ _ _ H1 Hg) as Hg2. eapply (item_over _ _ _ _ _ _ _ _ _ Hg2); [right; exists w; exact H2|reflexivity].
  Qed.
  Lemma prompt_would k tasks rt h T i q a w : good (k_vars k) (step_ok k tasks rt) h -> OPrompt T [i] q a ∈ h -> OWould T [i] w ∈ h -> False.
  Proof.
    intros Hg Hp Hw. destruct (good_in _ _ _ _ Hg Hp) as (h0 & _ & _ & _ & [_ (H & _)]). destruct (good_in _ _ _ _ Hg Hw) as (h1 & _ & _ & _ & [_ (H' & _)]). congruence.
  Qed.
  Lemma prompt_unique k tasks rt h T i q a q' a' : good (k_vars k) (step_ok k tasks rt) h -> OPrompt T [i] q a ∈ h -> OPrompt T [i] q' a' ∈ h -> a = a'.
  Proof.
    intros Hg H1 H2. destruct (in_order _ _ _ H1 H2) as [E|[(h2 & H3 & H4)|(h2 & H3 & H4)]]; [congruence| |]; exfalso;
      pose proof (good_suffix _ _ _ _ H3 Hg) as Hg2; refine (act_once _ _ _ _ _ _ T [i] Hg2 _ _ H4); reflexivity.
  Qed.
  Lemma alloc_unique_base k tasks rt h T m l m' l' : good (k_vars k) (step_ok k tasks rt) h -> OAlloc T [] m l ∈ h -> OAlloc T [] m' l' ∈ h -> m = m'.
  Proof.
    intros Hg H1 H2. destruct (in_order _ _ _ H1 H2) as [E|[(h2 & H3 & H4)|(h2 & H3 & H4)]]; [congruence| |]; exfalso;
      pose proof (good_suffix _ _ _ _ H3 Hg) as Hg2; apply good_tail in Hg2 as (_ & _ & [_ (Hn & _)]); exact (Hn _ _ H4).
  Qed.

  Lemma task_vars_0 k h t m : task_vars k h t 0 m -> exists vs globals order l,
    t_vars t = Some vs /\ globals_once k h globals /\ order ≡ₚ (map_to_list vs).*1 /\
    resolve_vars (k_getenv k) (Some vs) (Some globals) order = Ok m /\ OAlloc (t_name t) [] m l ∈ h.
  Proof. intros H. inversion H; subst. eauto 12. Qed.
  Lemma task_vars_S k h t i m : task_vars k h t (S i) m ->
    (exists m' p q v, task_vars k h t i m' /\ t_run t !! i = Some (RPrompt p) /\ OPrompt (t_name t) [i] q (Some v) ∈ h /\ m = <[p_prompt p := v]> m') \/
    (exists it, task_vars k h t i m /\ t_run t !! i = Some it /\ ((forall p, it <> RPrompt p) \/ (exists w, OSkip (t_name t) [i] w ∈ h) \/ (exists w, OWould (t_name t) [i] w ∈ h))).
  Proof. intros H. inversion H; subst; [left; eauto 10|right; eauto 10]. Qed.

  Lemma inc_run t i : t_run (inc t) !! i = prefix_item ns <$> t_run t !! i.
  Proof. cbn. apply list_lookup_fmap. Qed.
  Lemma prefix_prompt it p : prefix_item ns it = RPrompt p -> it = RPrompt p.
  Proof. destruct it; cbn; intros H; try discriminate H. exact H. Qed.

  Lemma vars_same h1 h2 T t i m1 m2 : matched h1 h2 -> good1 h1 -> good2 h2 -> tasks1 !! T = Some t -> t_vars t <> None ->
    task_vars k1 h1 t i m1 -> task_vars k2 h2 (inc t) i m2 -> m1 = m2.
  Proof.
    intros Hm Hg1 Hg2 Ht Hvs. pose proof (Hk1 T t Ht) as Hname. assert (Hn2 : t_name (inc t) = pre (t_name t)) by reflexivity.
    revert m1 m2. induction i as [|i IH]; intros m1 m2 H1 H2.
    - apply task_vars_0 in H1 as (vs & gl & order & l & E & _ & _ & _ & Ha1). apply task_vars_0 in H2 as (vs2 & gl2 & order2 & l2 & _ & _ & _ & _ & Ha2).
      destruct (matched_fwd _ _ _ Hm Ha1) as (e2 & He & HM); [intros (?&?&X); discriminate X|]. destruct e2; cbn in HM; try contradiction HM. destruct HM as (-> & -> & ->).
      rewrite Hn2 in Ha2. eapply alloc_unique_base; eassumption.
    - apply task_vars_S in H1 as [(m1' & p & q & v & H1 & Hp1 & Hq1 & ->)|(it1 & H1 & Hit1 & Hw1)];
        apply task_vars_S in H2 as [(m2' & p2 & q2 & v2 & H2 & Hp2 & Hq2 & ->)|(it2 & H2 & Hit2 & Hw2)]; rewrite inc_run in *; rewrite Hn2 in *.
      + rewrite Hp1 in Hp2. cbn in Hp2. injection Hp2 as <-. rewrite (IH _ _ H1 H2). apply (matched_prompt h1 h2) in Hq1; [|exact Hm].
        pose proof (prompt_unique _ _ _ _ _ _ _ _ _ _ Hg2 Hq1 Hq2) as E. injection E as ->. reflexivity.
      + exfalso. rewrite Hp1 in Hit2. cbn in Hit2. injection Hit2 as <-. apply (matched_prompt h1 h2) in Hq1; [|exact Hm].
        destruct Hw2 as [Hw|[(w & Hw)|(w & Hw)]]; [exact (Hw p eq_refl)|exact (prompt_skip _ _ _ _ _ _ _ _ _ Hg2 Hq1 Hw)|exact (prompt_would _ _ _ _ _ _ _ _ _ Hg2 Hq1 Hw)].
      + exfalso. rewrite Hit1 in Hp2. cbn in Hp2. injection Hp2 as Hp2. apply prefix_prompt in Hp2 as ->. apply (matched_prompt h1 h2) in Hq2; [|exact Hm].
        destruct Hw1 as [Hw|[(w & Hw)|(w & Hw)]]; [exact (Hw p2 eq_refl)|exact (prompt_skip _ _ _ _ _ _ _ _ _ Hg1 Hq2 Hw)|exact (prompt_would _ _ _ _ _ _ _ _ _ Hg1 Hq2 Hw)].
      + exact (IH _ _ H1 H2).
  Qed.
  Lemma vars_none h1 h2 T t i m2 : matched h1 h2 -> good1 h1 -> good2 h2 -> tasks1 !! T = Some t -> t_vars t = None ->
    task_vars k2 h2 (inc t) i m2 -> m2 = k_vars k1.
  Proof.
    intros Hm Hg1 Hg2 Ht Hvs. assert (Hn2 : t_name (inc t) = pre (t_name t)) by reflexivity.
    revert m2. induction i as [|i IH]; intros m2 H2.
    - apply task_vars_0 in H2 as (vs2 & gl2 & order2 & l2 & E2 & Hg & Ho & Hr & _). apply (globals_2 _ _ Hg2) in Hg as ->.
      cbn in E2. rewrite Hvs in E2. rewrite <- E2, Hget in Hr. apply (no_vars_same order2 m2); [|exact Hr]. unfold iteration_order. rewrite Ho. rewrite E2. reflexivity.
    - apply task_vars_S in H2 as [(m2' & p2 & q2 & v2 & H2 & Hp2 & Hq2 & ->)|(it2 & H2 & Hit2 & Hw2)]; [exfalso|exact (IH _ H2)].
      rewrite inc_run in Hp2. destruct (t_run t !! i) as [it|] eqn:Hit; [|discriminate Hp2]. injection Hp2 as Hp2. apply prefix_prompt in Hp2 as ->.
      rewrite Hn2 in Hq2. apply (matched_prompt h1 h2) in Hq2; [|exact Hm]. pose proof (prompt_rtc _ _ _ _ _ Hg1 Hq2) as Hrt. rewrite (Hk1 T t Ht) in Hrt.
      apply (po_asks _ _ _ Hpo T t Hrt Ht); [exists p2; eapply elem_of_list_lookup_2; exact Hit|exact Hvs].
  Qed.
  Lemma reads_same h1 h2 T pa l1 l2 m1 m2 : matched h1 h2 -> pa <> [] -> good1 (ORead T pa l1 m1 :: h1) -> good2 (ORead (pre T) pa l2 m2 :: h2) -> m1 = m2.
  Proof.
    intros Hm Hpa Hg1 Hg2. apply good_tail in Hg1 as (Hg1 & _ & [_ (t & Ht & Hs1 & _)]). apply good_tail in Hg2 as (Hg2 & _ & [_ (t2 & Ht2 & Hs2 & _)]).
    rewrite Htasks, Ht in Ht2. injection Ht2 as <-. specialize (Hs1 Hpa). specialize (Hs2 Hpa). unfold sees in Hs1, Hs2. cbn [t_vars inc include_task merge_maps] in Hs2.
    destruct (t_vars t) as [vs|] eqn:E.
    - eapply vars_same; try eassumption. rewrite E. discriminate.
    - apply (globals_1 _ _ Hg1) in Hs1 as ->. symmetry. eapply vars_none; eassumption.
  Qed.

  (** ** The programs *)
  Definition named (a b : str) : Prop := b = pre a.
  Notation msim := (sim (k_vars k1) (k_vars k2) good1 good2 M quiet1 quiet2 named (same_result pre)).

  Local Ltac opening :=
    match goal with |- sim ?g1 ?g2 ?G1 ?G2 ?M ?q1 ?q2 ?N ?O (Vis ?e1 ?f1) (Vis ?e2 ?f2) =>
      apply (sim_vis g1 g2 G1 G2 M q1 q2 N O e1 f1 e2 f2 (fun r1 r2 => r2 = r1)) end;
    [intros h1 h2 ans Hab Hal; exists ans; (split; [reflexivity|]) | intros h1 h2 ans Hab Hal; exists ans; (split; [reflexivity|]) | intros ans ? ->].
  (** Nothing but the world decides the answer. *)
  Local Ltac freely := opening; [split; [exact I|cbn; auto 10]..|].

  Record aok (a1 a2 : args) : Prop := {
    ao_main : a_main a2 = a_main a1; ao_silent : a_silent a2 = a_silent a1; ao_output : a_output a2 = a_output a1;
    ao_out : same_dest (a_out a1) (a_out a2); ao_nocolor : a_nocolor a2 = a_nocolor a1; ao_tui : a_tui a2 = a_tui a1; ao_ctx : a_ctx a2 = a_ctx a1 }.

  Lemma dest_piped d1 d2 : same_dest d1 d2 -> match d1 with [] => true | _ => false end = match d2 with [] => true | _ => false end.
  Proof. intros H. destruct H; reflexivity. Qed.
  Lemma ret_err e1 e2 : same_err pre e1 e2 -> msim (Ret (Some e1)) (Ret (Some e2)).
  Proof. intros H. apply sim_ret. exact H. Qed.
  Lemma ret_none : msim (Ret None) (Ret None).
  Proof. apply sim_ret. exact I. Qed.

  Lemma sim_read T pa l1 l2 q1 q2 : pa <> [] -> (forall m, msim (q1 m) (q2 m)) -> msim (Vis (ERead T pa l1) q1) (Vis (ERead (pre T) pa l2) q2).
  Proof.
    intros Hpa Hq. opening.
    - cbn in Hal. assert (E : ans = heap_of (k_vars k2) h2 l2).
      { eapply (reads_same h1 h2 T pa l1 l2); [exact (ab_matched _ _ _ _ _ _ _ _ _ _ _ Hab)|exact Hpa| |].
        - apply (ab_next1 _ _ _ _ _ _ _ _ _ _ _ Hab ans). exact Hal.
        - apply (ab_next2 _ _ _ _ _ _ _ _ _ _ _ Hab (heap_of (k_vars k2) h2 l2)). reflexivity. }
      split; [exact E|exact I].
    - cbn in Hal. assert (E : heap_of (k_vars k1) h1 l1 = ans).
      { eapply (reads_same h1 h2 T pa l1 l2); [exact (ab_matched _ _ _ _ _ _ _ _ _ _ _ Hab)|exact Hpa| |].
        - apply (ab_next1 _ _ _ _ _ _ _ _ _ _ _ Hab (heap_of (k_vars k1) h1 l1)). reflexivity.
        - apply (ab_next2 _ _ _ _ _ _ _ _ _ _ _ Hab ans). exact Hal. }
      split; [symmetry; exact E|exact I].
    - apply Hq.
  Qed.
  Lemma sim_globals T q1 q2 : msim (q1 (k_vars k1)) (q2 ∅) -> msim (Vis (ERead T [] 0) q1) (Vis (ERead (pre T) [] 0) q2).
  Proof.
    intros Hq. match goal with |- sim ?g1 ?g2 ?G1 ?G2 ?M ?u1 ?u2 ?N ?O (Vis ?e1 ?f1) (Vis ?e2 ?f2) =>
      apply (sim_vis g1 g2 G1 G2 M u1 u2 N O e1 f1 e2 f2 (fun r1 r2 => r1 = k_vars k1 /\ r2 = ∅)) end.
    - intros h1 h2 x Hab Hal. cbn in Hal. exists ∅. rewrite (heap0_1 h1 (ab_good1 _ _ _ _ _ _ _ _ _ _ _ Hab)) in Hal.
      split; [split; [exact Hal|reflexivity]|]. split; [|exact I]. symmetry. apply heap0_2. exact (ab_good2 _ _ _ _ _ _ _ _ _ _ _ Hab).
    - intros h1 h2 x Hab Hal. cbn in Hal. exists (k_vars k1). rewrite (heap0_2 h2 (ab_good2 _ _ _ _ _ _ _ _ _ _ _ Hab)) in Hal.
      split; [split; [reflexivity|exact Hal]|]. split; [|exact I]. symmetry. apply heap0_1. exact (ab_good1 _ _ _ _ _ _ _ _ _ _ _ Hab).
    - intros r1 r2 [-> ->]. exact Hq.
  Qed.
  Lemma sim_alloc T pa m q1 q2 : (forall l1 l2, msim (q1 l1) (q2 l2)) -> msim (Vis (EAlloc T pa m) q1) (Vis (EAlloc (pre T) pa m) q2).
  Proof.
    intros Hq. match goal with |- sim ?g1 ?g2 ?G1 ?G2 ?M ?u1 ?u2 ?N ?O (Vis ?e1 ?f1) (Vis ?e2 ?f2) =>
      apply (sim_vis g1 g2 G1 G2 M u1 u2 N O e1 f1 e2 f2 (fun r1 r2 => True)) end.
    - intros h1 h2 x Hab Hal. exists (S (allocs h2)). split; [exact I|]. split; [reflexivity|]. cbn. auto.
    - intros h1 h2 x Hab Hal. exists (S (allocs h1)). split; [exact I|]. split; [reflexivity|]. cbn. auto.
    - intros r1 r2 _. apply Hq.
  Qed.
  Lemma sim_order m q1 q2 : (forall o, msim (q1 o) (q2 o)) -> msim (Vis (EOrder m) q1) (Vis (EOrder m) q2).
  Proof. intros Hq. opening; [split; [exact Hal|exact I]..|]. apply Hq. Qed.
  Lemma sim_claim n sc1 sc2 q1 q2 : (forall s, msim (q1 s) (q2 s)) -> msim (Vis (EClaim n sc1) q1) (Vis (EClaim (pre n) sc2) q2).
  Proof.
    intros Hq. opening; [| |apply Hq]; cbn in Hal |- *; rewrite <- (matched_status h1 h2 n (ab_matched _ _ _ _ _ _ _ _ _ _ _ Hab)) in *; auto.
  Qed.
  Lemma sim_get n q1 q2 : (forall s, msim (q1 s) (q2 s)) -> msim (Vis (EGet n) q1) (Vis (EGet (pre n)) q2).
  Proof.
    intros Hq. opening; [| |apply Hq]; cbn in Hal |- *; rewrite <- (matched_status h1 h2 n (ab_matched _ _ _ _ _ _ _ _ _ _ _ Hab)) in *; auto.
  Qed.
  Lemma sim_check n i c q1 q2 : (forall s, msim (q1 s) (q2 s)) -> msim (Vis (ECheck n i c) q1) (Vis (ECheck (pre n) i c) q2).
  Proof.
    intros Hq. opening; [| |apply Hq]; cbn in Hal |- *; rewrite <- (matched_cancelled h1 h2 c (ab_matched _ _ _ _ _ _ _ _ _ _ _ Hab)) in *; auto.
  Qed.
  Lemma sim_newctx c q1 q2 : (forall s, msim (q1 s) (q2 s)) -> msim (Vis (ENewCtx c) q1) (Vis (ENewCtx c) q2).
  Proof.
    intros Hq. opening; [| |apply Hq]; cbn in Hal |- *; rewrite <- (matched_contexts h1 h2 (ab_matched _ _ _ _ _ _ _ _ _ _ _ Hab)) in *; auto.
  Qed.
  Lemma sim_start x1 x2 q1 q2 : same_process pre x1 x2 -> (forall b, msim (q1 b) (q2 b)) -> msim (Vis (EStart x1) q1) (Vis (EStart x2) q2).
  Proof.
    intros Hx Hq. assert (Hc : x_ctx x2 = x_ctx x1) by (destruct Hx as (_&_&_&_&_&_&_&H&_); exact H).
    opening; [| |apply Hq]; cbn in Hal |- *; rewrite Hc in *; rewrite <- (matched_cancelled h1 h2 (x_ctx x1) (ab_matched _ _ _ _ _ _ _ _ _ _ _ Hab)) in *; auto.
  Qed.
  Lemma sim_snapshot q1 q2 : (forall m1 m2, (forall n, m2 !! pre n = m1 !! n) -> msim (q1 m1) (q2 m2)) -> msim (Vis ESnapshot q1) (Vis ESnapshot q2).
  Proof.
    intros Hq. match goal with |- sim ?g1 ?g2 ?G1 ?G2 ?M ?u1 ?u2 ?N ?O (Vis ?e1 ?f1) (Vis ?e2 ?f2) =>
      apply (sim_vis g1 g2 G1 G2 M u1 u2 N O e1 f1 e2 f2 (fun (r1 r2 : gmap str status) => forall n, r2 !! pre n = r1 !! n)) end.
    - intros h1 h2 x Hab Hal. destruct (allowed_ex (k_vars k2) h2 ESnapshot) as (y & Hy). exists y. cbn in Hal, Hy |- *.
      assert (E : forall n, y !! pre n = x !! n).
      { intros n. rewrite Hy, Hal, (matched_status h1 h2 n (ab_matched _ _ _ _ _ _ _ _ _ _ _ Hab)). reflexivity. }
      auto.
    - intros h1 h2 x Hab Hal. destruct (allowed_ex (k_vars k1) h1 ESnapshot) as (y & Hy). exists y. cbn in Hal, Hy |- *.
      assert (E : forall n, x !! pre n = y !! n).
      { intros n. rewrite Hy, Hal, (matched_status h1 h2 n (ab_matched _ _ _ _ _ _ _ _ _ _ _ Hab)). reflexivity. }
      auto.
    - exact Hq.
  Qed.
  Lemma sim_and_then p1 p2 w1 w2 q1 q2 : (forall e1 e2, same_err pre e1 e2 -> same_err pre (w1 e1) (w2 e2)) -> msim p1 p2 -> msim q1 q2 ->
    msim (and_then p1 w1 q1) (and_then p2 w2 q2).
  Proof.
    intros Hw Hp Hq. apply sim_bind; [exact Hp|]. intros [e1|] [e2|] H; cbn in H; try contradiction H; [apply ret_err, Hw, H|exact Hq].
  Qed.

  Lemma sim_env ln vars env f1 f2 : (forall m, msim (f1 m) (f2 m)) -> msim (interpolate_env_then k1 ln vars env f1) (interpolate_env_then k2 ln vars env f2).
  Proof.
    intros Hf. unfold interpolate_env_then. destruct (decide (env = ∅)); [apply Hf|]. apply sim_order. intros o. rewrite Hget.
    destruct (interpolate_env _ _ _ _); [apply Hf|apply ret_err; cbn; auto].
  Qed.
  Lemma sim_dir t pa ln d vars f1 f2 : (forall d', msim (f1 d') (f2 d')) -> msim (resolve_dir_then k1 t pa ln d vars f1) (resolve_dir_then k2 (inc t) pa ln d vars f2).
  Proof.
    intros Hf. unfold resolve_dir_then. cbv zeta. rewrite Hget, Hdir2, Hdir1. cbn [t_name t_source t_dir inc include_task].
    match goal with |- msim (match ?x with [] => _ | _ :: _ => _ end) (match ?y with [] => _ | _ :: _ => _ end) => assert (E : y = x) end.
    { destruct d; [|reflexivity]. destruct (t_dir t); [|reflexivity]. destruct (pr_dir r); reflexivity. }
    rewrite E. clear E. match goal with |- msim (match ?x with [] => _ | _ :: _ => _ end) _ => destruct x as [|c d'] end; [apply Hf|].
    destruct (interpolate _ _ _) as [d3|e]; [|apply ret_err; cbn; auto]. freely. destruct ans; first [apply Hf|apply ret_err; cbn; auto].
  Qed.
  Lemma silent_same o t : is_silent [o; t_silent (inc t); k_silent k2] = is_silent [o; t_silent t; k_silent k1].
  Proof. rewrite Hsil1, Hsil2. cbn [t_silent inc include_task]. destruct o, (t_silent t), (pr_silent r); reflexivity. Qed.
  Lemma silent_same' o o' t : is_silent [o; o'; t_silent (inc t); k_silent k2] = is_silent [o; o'; t_silent t; k_silent k1].
  Proof. rewrite Hsil1, Hsil2. cbn [t_silent inc include_task]. destruct o, o', (t_silent t), (pr_silent r); reflexivity. Qed.
  Lemma output_same o o' t : is_output [o; o'; t_output (inc t); k_output k2] = is_output [o; o'; t_output t; k_output k1].
  Proof. rewrite Hout1, Hout2. cbn [t_output inc include_task]. destruct o, o', (t_output t), (pr_output r); reflexivity. Qed.
  Lemma piped_same a1 a2 : aok a1 a2 -> a_piped a2 = a_piped a1.
  Proof. intros H. unfold a_piped. destruct (ao_out _ _ H); reflexivity. Qed.

  Lemma sim_command c t pa l1 l2 env a1 a2 : pa <> [] -> aok a1 a2 ->
    msim (execute_command k1 c t pa l1 env a1) (execute_command k2 c (inc t) pa l2 env a2).
  Proof.
    intros Hpa Ha. unfold execute_command. change (t_name (inc t)) with (pre (t_name t)).
    destruct (trim_space (c_cmd c)); [apply ret_err; cbn; auto|]. apply sim_read; [exact Hpa|]. intros vars. rewrite Hget.
    destruct (interpolate _ _ _) as [cmd|e]; [|apply ret_err; cbn; auto]. apply sim_env. intros ce. apply sim_dir. intros d. rewrite Hdry.
    case (k_dry k1); [freely; apply ret_none|]. cbv zeta. rewrite silent_same', output_same, (piped_same a1 a2 Ha), (ao_silent _ _ Ha), (ao_output _ _ Ha), (ao_nocolor _ _ Ha), (ao_ctx _ _ Ha), Henviron.
    match goal with |- msim (if ?b then ?p else _) (if _ then ?q else _) => assert (Hgo : msim p q) end.
    { apply sim_order. intros o. apply sim_start; [unfold same_process; cbn; repeat (split; [reflexivity|]); exact (ao_out _ _ Ha)|].
      intros [|]; [|apply ret_err; cbn; auto]. freely. destruct ans; [apply ret_none|apply ret_err; cbn; auto]. }
    destruct (is_silent _); [exact Hgo|]. pose proof (ao_out _ _ Ha). freely. exact Hgo.
  Qed.

  Section Calls.
    Context (rt1 rt2 : str -> args -> prog)
      (Hrt : forall n a1 a2, rtc (edge tasks1) root n -> aok a1 a2 -> msim (rt1 n a1) (rt2 (pre n) a2)).

    Lemma sim_run_item it t pa l1 l2 env a1 a2 : pa <> [] -> aok a1 a2 -> (forall x, it = RTask x -> rtc (edge tasks1) root (r_task x)) ->
      msim (execute_run_item k1 rt1 it t pa l1 env a1) (execute_run_item k2 rt2 (prefix_item ns it) (inc t) pa l2 env a2).
    Proof.
      intros Hpa Ha Hr. destruct it as [c|x|lg|p|o items]; cbn [execute_run_item prefix_item]; try (apply ret_err; exact I).
      - apply sim_command; assumption.
      - rewrite Hdry. case (k_dry k1); [freely; apply ret_none|]. cbn [r_task r_silent r_output].
        apply Hrt; [apply Hr; reflexivity|]. destruct Ha. constructor; cbn [a_main a_silent a_output a_out a_nocolor a_tui a_ctx]; congruence || assumption.
      - apply sim_read; [exact Hpa|]. intros vars. rewrite Hget, Hdry. destruct (interpolate _ _ _) as [x|]; [|apply ret_err; cbn; auto].
        pose proof (ao_out _ _ Ha). case (k_dry k1); freely; apply ret_none.
    Qed.

    Lemma sim_pre_deps deps s1 s2 a1 a2 q1 q2 : aok a1 a2 -> (forall d, d ∈ deps -> rtc (edge tasks1) root d) ->
      (forall n, pre n ∈ s2 <-> n ∈ s1) ->
      (forall s1 s2 : gset str, (forall n, pre n ∈ s2 <-> n ∈ s1) -> msim (q1 s1) (q2 s2)) ->
      msim (pre_deps rt1 deps s1 a1 q1) (pre_deps rt2 (map pre deps) s2 a2 q2).
    Proof.
      intros Ha Hd Hs Hq. revert s1 s2 Hs. induction deps as [|d rest IH]; intros s1 s2 Hs; cbn [pre_deps map]; [apply Hq; exact Hs|].
      assert (Hrest : forall d', d' ∈ rest -> rtc (edge tasks1) root d') by (intros d' H; apply Hd; right; exact H).
      assert (Hs' : forall n, pre n ∈ {[pre d]} ∪ s2 <-> n ∈ {[d]} ∪ s1).
      { intros n. rewrite !elem_of_union, !elem_of_singleton, Hs. split; (intros [E|E]; [left|right; exact E]); [apply pre_inj in E; exact E|subst; reflexivity]. }
      destruct (decide (d ∈ s1)) as [H|H].
      - rewrite decide_True by (apply Hs; exact H). apply IH; assumption.
      - rewrite decide_False by (rewrite Hs; exact H). apply sim_get. intros s.
        assert (Hrun : msim (and_then (rt1 d a1) (RPreDep d) (pre_deps rt1 rest ({[d]} ∪ s1) a1 q1))
          (and_then (rt2 (pre d) a2) (RPreDep (pre d)) (pre_deps rt2 (map pre rest) ({[pre d]} ∪ s2) a2 q2))).
        { apply sim_and_then; [cbn; auto|apply Hrt; [apply Hd; left|exact Ha]|apply IH; assumption]. }
        destruct s; [exact Hrun..|]. apply IH; assumption.
    Qed.
    Lemma sim_pre_resolve items s1 s2 a1 a2 : aok a1 a2 -> (forall x, RTask x ∈ items -> rtc (edge tasks1) root (r_task x)) ->
      (forall n, pre n ∈ s2 <-> n ∈ s1) ->
      msim (pre_resolve tasks1 rt1 items s1 a1) (pre_resolve tasks2 rt2 (map (prefix_item ns) items) s2 a2).
    Proof.
      intros Ha. revert s1 s2. induction items as [|it rest IH]; intros s1 s2 Hr Hs; cbn [pre_resolve map]; [apply ret_none|].
      assert (Hrest : forall x, RTask x ∈ rest -> rtc (edge tasks1) root (r_task x)) by (intros x H; apply Hr; right; exact H).
      destruct it as [c|x|lg|p|o its]; cbn [prefix_item]; try (apply IH; assumption).
      cbn [r_task]. rewrite Htasks. destruct (tasks1 !! r_task x) as [t'|] eqn:E; cbn [fmap option_fmap option_map]; [|apply ret_err; cbn; auto].
      change (t_deps (inc t')) with (map pre (t_deps t')). apply sim_pre_deps; [exact Ha| |exact Hs|].
      - intros d Hd. eapply rtc_r; [apply Hr; left|]. exists t'. auto.
      - intros s1' s2' Hs'. apply IH; assumption.
    Qed.

    Lemma first_err_same l1 l2 : logs (same_result pre) l1 l2 -> same_result pre (first_err l1) (first_err l2).
    Proof.
      induction 1 as [|[j r1] [j' r2] l1 l2 [Hj Hr] Hl IH]; [exact I|]. cbn in Hj, Hr |- *. subst j'.
      destruct r1, r2; cbn in Hr; try contradiction Hr; [cbn; auto|exact IH].
    Qed.
    Lemma succeeded_same l1 l2 j : logs (same_result pre) l1 l2 -> succeeded l1 j = succeeded l2 j.
    Proof.
      unfold succeeded. induction 1 as [|[i r1] [i' r2] l1 l2 [Hi Hr] Hl IH]; [reflexivity|]. cbn in Hi, Hr |- *. subst i'. rewrite IH.
      destruct r1, r2; cbn in Hr; try contradiction Hr; reflexivity.
    Qed.
    Lemma sim_fork_items o o' items t pa l1 l2 env c sub1 sub2 q1 q2 : q_limit o' = q_limit o ->
      (forall x, RTask x ∈ items -> rtc (edge tasks1) root (r_task x)) -> (forall j, aok (sub1 j) (sub2 j)) ->
      (forall l1 l2, logs (same_result pre) l1 l2 -> msim (q1 l1) (q2 l2)) ->
      msim (fork k1 rt1 o items t pa l1 env c sub1 q1) (fork k2 rt2 o' (map (prefix_item ns) items) (inc t) pa l2 env c sub2 q2).
    Proof.
      intros Hl Hr Hsub Hq. unfold fork. rewrite Hl. apply sim_fork; [reflexivity| |constructor| |exact Hq].
      - apply list_eq. intros j. rewrite !list_lookup_fmap, !list_lookup_imap. change (map (prefix_item ns) items) with (prefix_item ns <$> items).
        rewrite list_lookup_fmap. destruct (items !! j); reflexivity.
      - intros j s1 s2 p1 p2 H1 H2. rewrite list_lookup_imap in H1, H2. change (map (prefix_item ns) items) with (prefix_item ns <$> items) in H2. rewrite list_lookup_fmap in H2.
        destruct (items !! j) as [it|] eqn:E; [|discriminate H1]. injection H1 as <- <-. injection H2 as <- <-.
        apply sim_run_item; [destruct pa; discriminate|apply Hsub|]. intros x ->. apply Hr. eapply elem_of_list_lookup_2; exact E.
    Qed.
    Lemma sim_parallel o items t pa l1 l2 env a1 a2 : q_silent o = None -> q_output o = None -> aok a1 a2 ->
      (forall x, RTask x ∈ items -> rtc (edge tasks1) root (r_task x)) ->
      msim (execute_parallel k1 tasks1 rt1 o items t pa l1 env a1)
        (execute_parallel k2 tasks2 rt2 (ParOpts (q_line o) (q_labels o) (q_mode o) (q_limit o) (q_color o) None None (q_platforms o) (q_when o))
           (map (prefix_item ns) items) (inc t) pa l2 env a2).
    Proof.
      intros Hs Ho Ha Hr. unfold execute_parallel. cbn [q_silent q_output q_color q_mode q_limit]. rewrite Hs, Ho. change (t_name (inc t)) with (pre (t_name t)). cbv zeta.
      assert (Haok : forall f1 f2, aok
        (Args false (a_silent a1) (a_output a1) (a_out a1) (a_nocolor a1 || negb (default true (q_color o))) (a_tui a1) (a_ctx a1) f1)
        (Args false (a_silent a2) (a_output a2) (a_out a2) (a_nocolor a2 || negb (default true (q_color o))) (a_tui a2) (a_ctx a2) f2)).
      { intros f1 f2. destruct Ha. constructor; cbn [a_main a_silent a_output a_out a_nocolor a_tui a_ctx]; congruence || assumption. }
      apply sim_and_then; [cbn; auto|apply sim_pre_resolve; [apply Haok|exact Hr|]|].
      { intros n. split; intros H; contradiction (not_elem_of_empty _ H). }
      rewrite Hdry, Hterm, map_length. case (k_dry k1); [freely; apply ret_none|].
      rewrite (piped_same a1 a2 Ha). replace (a_in_tui a2) with (a_in_tui a1) by (unfold a_in_tui; rewrite (ao_tui _ _ Ha); reflexivity).
      assert (Hfin : forall l1 l2, logs (same_result pre) l1 l2 -> msim (Ret (first_err l1)) (Ret (first_err l2))).
      { intros l l' Hl. apply sim_ret. apply first_err_same. exact Hl. }
      destruct (is_tui_mode (q_mode o) && k_terminal k1 && (negb (a_piped a1) || a_in_tui a1)).
      - unfold execute_tui. cbn [a_tui a_ctx a_out a_silent a_output a_nocolor a_scope]. rewrite silent_same, (ao_silent _ _ Ha), (ao_output _ _ Ha), (ao_nocolor _ _ Ha), (ao_tui _ _ Ha), (ao_ctx _ _ Ha).
        assert (Hsum : forall b d l1 l2, logs (same_result pre) l1 l2 -> same_dest d d ->
          msim (if b : bool then Ret (first_err l1) else Vis (ESummary (t_name t) pa (imap (fun j _ => succeeded l1 j) items) d) (fun _ => Ret (first_err l1)))
               (if b then Ret (first_err l2) else Vis (ESummary (pre (t_name t)) pa (imap (fun j _ => succeeded l2 j) (map (prefix_item ns) items)) d) (fun _ => Ret (first_err l2)))).
        { intros b d l l' Hl Hd. destruct b; [apply Hfin; exact Hl|].
          replace (imap (fun j _ => succeeded l' j) (map (prefix_item ns) items)) with (imap (fun j _ => succeeded l j) items).
          - freely. apply Hfin. exact Hl.
          - change (map (prefix_item ns) items) with (prefix_item ns <$> items). rewrite imap_fmap. apply imap_ext. intros j ? _. apply succeeded_same. exact Hl. }
        destruct (a_tui a1) as [path|].
        + apply sim_fork_items; [reflexivity|exact Hr| |].
          * intros j. constructor; try reflexivity. cbn. constructor; [reflexivity|constructor].
          * intros l l' Hl. apply Hsum; [exact Hl|]. constructor; [reflexivity|constructor].
        + apply sim_newctx. intros i. freely. destruct ans; [|apply ret_err; exact I]. apply sim_fork_items; [reflexivity|exact Hr| |].
          * intros j. constructor; try reflexivity. cbn. constructor; [reflexivity|constructor].
          * intros l l' Hl. apply Hsum; [exact Hl|]. constructor.
      - unfold execute_interleaved. cbn [a_tui a_ctx a_out a_silent a_output a_nocolor a_scope]. rewrite (ao_ctx _ _ Ha). apply sim_fork_items; [reflexivity|exact Hr| |exact Hfin].
        intros j. destruct Ha. constructor; cbn; try congruence. constructor; [exact I|assumption].
    Qed.

    Lemma sim_item it t i l1 l2 env a1 a2 : rtc (edge tasks1) root (t_name t) -> tasks1 !! t_name t = Some t -> t_run t !! i = Some it -> aok a1 a2 ->
      msim (execute_item k1 tasks1 rt1 it t i l1 env a1) (execute_item k2 tasks2 rt2 (prefix_item ns it) (inc t) i l2 env a2).
    Proof.
      intros Hrtc Ht Hi Ha.
      assert (Hone : forall x, it = RTask x -> rtc (edge tasks1) root (r_task x)).
      { intros x ->. eapply rtc_r; [exact Hrtc|]. exists t. split; [exact Ht|]. right. eapply refers_in; exact Hi. }
      destruct it as [c|x|lg|p|o items];
        try (match goal with |- context [prefix_item ns ?it] => apply (sim_run_item it) end; [discriminate|exact Ha|exact Hone]);
        unfold execute_item; cbn [prefix_item]; change (t_name (inc t)) with (pre (t_name t)).
      - apply sim_read; [discriminate|]. intros vars. rewrite Hget, Hdry. destruct (interpolate_prompt _ _ _) as [q|]; [|apply ret_err; cbn; auto].
        case (k_dry k1); freely; [apply ret_none|]. destruct ans as [v|]; [|apply ret_err; cbn; auto]. freely. apply ret_none.
      - rewrite Hdry, map_length. case (k_dry k1); [freely; apply ret_none|]. apply sim_read; [discriminate|]. intros vars. apply sim_alloc. intros m1 m2.
        destruct (po_blocks _ _ _ Hpo _ _ _ _ _ Hrtc Ht Hi) as [Hs Ho]. apply sim_parallel; [exact Hs|exact Ho|exact Ha|].
        intros x Hx. eapply rtc_r; [exact Hrtc|]. exists t. split; [exact Ht|]. right. eapply refers_block; [exact Hi|].
        apply elem_of_list_lookup in Hx as [j Hj]. eapply refers_in. exact Hj.
    Qed.

    Lemma sim_items items t i x s l1 l2 env a1 a2 : rtc (edge tasks1) root (t_name t) -> tasks1 !! t_name t = Some t -> drop i (t_run t) = items -> aok a1 a2 ->
      msim (execute_items k1 tasks1 rt1 items t i x s l1 env a1) (execute_items k2 tasks2 rt2 (map (prefix_item ns) items) (inc t) i x s l2 env a2).
    Proof.
      intros Hrtc Ht Hi Ha. revert i x s Hi. induction items as [|it rest IH]; intros i x s Hi; cbn [execute_items map]; change (t_name (inc t)) with (pre (t_name t)).
      - destruct x, s; try apply ret_none. apply ret_err. reflexivity.
      - assert (Hit : t_run t !! i = Some it) by (rewrite <- (Nat.add_0_r i), <- lookup_drop, Hi; reflexivity).
        assert (Hr : drop (S i) (t_run t) = rest).
        { replace (S i) with (i + 1) by lia. rewrite <- drop_drop, Hi. reflexivity. }
        replace (item_platforms (prefix_item ns it)) with (item_platforms it) by (destruct it; reflexivity).
        replace (item_when (prefix_item ns it)) with (item_when it) by (destruct it; reflexivity).
        replace (item_line (prefix_item ns it)) with (item_line it) by (destruct it; reflexivity).
        rewrite (ao_ctx _ _ Ha). apply sim_check. intros [|]; [apply ret_err; exact I|]. rewrite Hos.
        destruct (negb _); [freely; apply IH; exact Hr|]. cbv zeta.
        match goal with |- msim (match item_when it with [] => ?p | _ => _ end) (match _ with [] => ?q | _ => _ end) => assert (Hgo : msim p q) end.
        { apply sim_bind; [apply sim_item; assumption|]. intros r1 r2 HO. freely.
          destruct r1, r2; cbn in HO; try contradiction HO; [apply ret_err; exact HO|apply IH; exact Hr]. }
        destruct (item_when it) as [|c w]; [exact Hgo|]. apply sim_read; [discriminate|]. intros vars. rewrite Hget.
        destruct (evaluate _ _ _) as [[|]|e]; [exact Hgo| |apply ret_err; cbn; auto].
        freely. apply IH. exact Hr.
    Qed.

    Lemma env_merged t : smap_get (merge_maps (k_env k2) (t_env (inc t))) = smap_get (merge_maps (k_env k1) (t_env t)).
    Proof. unfold merge_maps. cbn [t_env inc include_task smap_get default]. rewrite Henv2, Henv1. unfold merge_maps. cbn [smap_get default]. rewrite map_union_empty. reflexivity. Qed.

    Lemma sim_task t a1 a2 : rtc (edge tasks1) root (t_name t) -> tasks1 !! t_name t = Some t -> aok a1 a2 ->
      msim (execute_task k1 tasks1 rt1 t a1) (execute_task k2 tasks2 rt2 (inc t) a2).
    Proof.
      intros Hrtc Ht Ha. unfold execute_task. cbv zeta. rewrite env_merged. change (t_name (inc t)) with (pre (t_name t)). change (t_run (inc t)) with (map (prefix_item ns) (t_run t)).
      change (t_vars (inc t)) with (Some (smap_get (t_vars t) ∪ fv)). cbv beta iota.
      assert (Hgo : forall l1 l2 vars, msim
        (interpolate_env_then k1 (t_line t) vars (smap_get (merge_maps (k_env k1) (t_env t))) (fun env => execute_items k1 tasks1 rt1 (t_run t) t 0 0 0 l1 env a1))
        (interpolate_env_then k2 (t_line t) vars (smap_get (merge_maps (k_env k1) (t_env t))) (fun env => execute_items k2 tasks2 rt2 (map (prefix_item ns) (t_run t)) (inc t) 0 0 0 l2 env a2))).
      { intros l1 l2 vars. apply sim_env. intros m. apply sim_items; [exact Hrtc|exact Ht|apply drop_0|exact Ha]. }
      eapply (sim_right _ _ _ _ _ _ _ _ _ (EOrder (smap_get (t_vars t) ∪ fv)) _ _ (fun o2 : list str => iteration_order (smap_get (t_vars t) ∪ fv) o2)).
      { intros h o2 _ _ Hal. split; [exact Hal|]. left. eexists _, _. reflexivity. }
      intros o2 Ho2. pose proof (Htn _ _ Ht) as Hvn. destruct (t_vars t) as [vs|] eqn:Evs.
      - eapply (sim_left _ _ _ _ _ _ _ _ _ (EOrder vs) _ _ (fun o1 : list str => iteration_order vs o1)).
        { intros h o1 _ _ Hal. split; [exact Hal|]. eexists _, _. reflexivity. }
        intros o1 Ho1. apply sim_globals. rewrite Hget. cbn [smap_get default] in Ho2, Hvn |- *.
        pose proof (fun m => resolve_same (k_getenv k1) fv vs (k_vars k1) o0 o1 o2 m Hgn Hfn Hvn (fun x s n H1 H2 H3 => ltac:(
          pose proof (po_vars _ _ _ Hpo _ t x s n Hrtc Ht H1) as H; rewrite Evs in H; exact (H H2 H3))) Ho0 Ho1 Ho2 Hres) as Hrs.
        match goal with |- msim _ (match ?y with Ok _ => _ | Err _ => _ end) => change y with (resolve_vars (k_getenv k1) (Some (vs ∪ fv)) (Some ∅) o2) end.
        destruct (resolve_vars _ (Some vs) _ _) as [m|e].
        + rewrite (proj1 (Hrs m) eq_refl). apply sim_alloc. intros l1 l2. apply Hgo.
        + destruct (resolve_vars _ (Some (vs ∪ fv)) _ _) as [m|e']; [discriminate (proj2 (Hrs m) eq_refl)|apply ret_err; reflexivity].
      - apply sim_globals. rewrite Hget.
        match goal with |- context [resolve_vars ?g ?b ?p ?o] => assert (E : resolve_vars g b p o = Ok (k_vars k1)) by (apply (no_vars_same o2 (k_vars k1)); [exact Ho2|reflexivity]) end.
        rewrite E. eapply (sim_right _ _ _ _ _ _ _ _ _ _ _ _ (fun _ => True)); [|intros l2 _; apply Hgo].
        intros h l2 _ _ _. split; [exact I|]. right. exists (t_name t), t, (k_vars k1), l2. auto.
    Qed.
    Lemma sim_deps n n' deps a1 a2 q1 q2 : aok a1 a2 -> (forall d, d ∈ deps -> rtc (edge tasks1) root d) -> msim q1 q2 ->
      msim (run_deps rt1 n deps a1 q1) (run_deps rt2 n' (map pre deps) a2 q2).
    Proof.
      intros Ha Hd Hq. induction deps as [|d rest IH]; cbn [run_deps map]; [exact Hq|].
      apply sim_and_then; [cbn; auto| |apply IH; intros d' H; apply Hd; right; exact H].
      apply Hrt; [apply Hd; left|]. destruct Ha. constructor; cbn [a_main a_silent a_output a_out a_nocolor a_tui a_ctx]; congruence || assumption.
    Qed.
  End Calls.

  Lemma when_same T t : rtc (edge tasks1) root T -> tasks1 !! T = Some t -> forall m m', evaluate (k_getenv k1) m (t_when t) = evaluate (k_getenv k1) m' (t_when t).
  Proof.
    intros Hr Ht m m'. unfold evaluate. destruct (decide (t_when t = [])) as [_|_]; [reflexivity|].
    assert (E : interpolate (k_getenv k1) m (t_when t) = interpolate (k_getenv k1) m' (t_when t)); [|rewrite E; reflexivity].
    destruct (reads_total (t_when t)) as [ps Hps]. unfold interpolate. cbv zeta. rewrite !(passes12 _ _ Hps), matches_toks_of.
    assert (Hv : forall n, n ∈ refs_of ps -> resolve_var (k_getenv k1) m n = resolve_var (k_getenv k1) m' n).
    { intros n Hn. destruct (po_when _ _ _ Hpo T t ps n Hr Ht Hps Hn) as (x & ->). reflexivity. }
    assert (He : ref_errs (k_getenv k1) m (refs_of ps) = ref_errs (k_getenv k1) m' (refs_of ps)).
    { clear -Hv. induction (refs_of ps) as [|n l IH]; [reflexivity|]. cbn [ref_errs]. rewrite (Hv n) by left. rewrite IH; [reflexivity|]. intros n' H. apply Hv. right. exact H. }
    rewrite He. destruct (ref_errs _ m' _); [|reflexivity]. do 2 f_equal. clear -Hv. rewrite <- matches_toks_of in Hv.
    induction (toks_of ps) as [|[n|c] l IH]; cbn [render matches] in *; [reflexivity| |rewrite IH by exact Hv; reflexivity].
    rewrite IH by (intros n' H; apply Hv; right; exact H). unfold subst_ref. rewrite (Hv n) by left. reflexivity.
  Qed.

  Lemma chain_same fuel cur m1 m2 : (forall n, m2 !! pre n = m1 !! n) -> forall chain last s1 s2, (forall n, pre n ∈ s2 <-> n ∈ s1) ->
    build_chain fuel (pre cur) tasks2 m2 (map pre chain) (pre last) s2 = map pre (build_chain fuel cur tasks1 m1 chain last s1).
  Proof.
    intros Hm. induction fuel as [|f IH]; intros chain last s1 s2 Hs; cbn [build_chain]; [reflexivity|].
    destruct (decide (last ∈ s1)) as [H|H]; [rewrite decide_True by (apply Hs; exact H); reflexivity|]. rewrite decide_False by (rewrite Hs; exact H).
    rewrite Htasks. destruct (tasks1 !! last) as [t|]; [|reflexivity]. cbn [fmap option_fmap option_map].
    change (t_deps (inc t)) with (map pre (t_deps t)).
    assert (E : filter (fun d => m2 !! d = Some Active) (map pre (t_deps t)) = map pre (filter (fun d => m1 !! d = Some Active) (t_deps t))).
    { induction (t_deps t) as [|d l IHl]; [reflexivity|]. cbn [map]. rewrite !filter_cons, Hm. destruct (decide (m1 !! d = Some Active)); cbn [map]; rewrite IHl; reflexivity. }
    rewrite E. clear E. destruct (filter _ (t_deps t)) as [|d ds]; [reflexivity|]. cbn [map].
    assert (Hs' : forall n, pre n ∈ {[pre last]} ∪ s2 <-> n ∈ {[last]} ∪ s1).
    { intros n. rewrite !elem_of_union, !elem_of_singleton, Hs. split; (intros [E|E]; [left|right; exact E]); [apply pre_inj in E; exact E|subst; reflexivity]. }
    destruct (decide (d = cur)) as [->|Hne].
    - rewrite decide_True by reflexivity. rewrite map_app. reflexivity.
    - rewrite decide_False by (intros E; apply pre_inj in E; contradiction). rewrite <- (IH _ _ _ _ Hs'), map_app. reflexivity.
  Qed.

  Lemma sim_run_task fuel : forall n a1 a2, rtc (edge tasks1) root n -> aok a1 a2 ->
    msim (run_task k1 tasks1 fuel n a1) (run_task k2 tasks2 fuel (pre n) a2).
  Proof.
    induction fuel as [|f IH]; intros n a1 a2 Hrtc Ha; cbn [run_task]; [apply ret_err; exact I|].
    apply sim_claim. intros [| |]; [| |apply ret_none].
    2: { apply sim_snapshot. intros m1 m2 Hm. unfold build_chain_slice. rewrite Hsize. apply ret_err.
         apply (chain_same (2 + size tasks1) n m1 m2 Hm [n] n ∅ ∅). intros x. split; intros H; contradiction (not_elem_of_empty _ H). }
    rewrite Htasks. destruct (tasks1 !! n) as [t|] eqn:Et; cbn [fmap option_fmap option_map]; [|apply ret_err; cbn; auto].
    pose proof (Hk1 n t Et) as Hn. assert (Ht : tasks1 !! t_name t = Some t) by (rewrite Hn; exact Et). cbv zeta.
    change (t_deps (inc t)) with (map pre (t_deps t)). change (t_when (inc t)) with (t_when t). rewrite Hdry, (ao_silent _ _ Ha), silent_same, (ao_main _ _ Ha).
    match goal with |- msim (match t_when t with [] => ?p | _ => _ end) (match _ with [] => ?q | _ => _ end) => assert (Hbody : msim p q) end.
    { match goal with |- msim (if ?b then Vis ?e (fun _ => ?p) else _) (if _ then Vis ?e' (fun _ => ?q) else _) =>
        assert (Hrest : msim p q); [|pose proof (ao_out _ _ Ha); destruct b; [freely|]; exact Hrest] end.
      apply sim_deps; [exact IH|exact Ha| |].
      { intros d Hd. eapply rtc_r; [exact Hrtc|]. exists t. auto. }
      assert (Hfin : msim (Vis (EDone n) (fun _ => Ret None)) (Vis (EDone (pre n)) (fun _ => Ret None))) by (freely; apply ret_none).
      change (t_run (inc t)) with (map (prefix_item ns) (t_run t)). destruct (t_run t) as [|it its]; [exact Hfin|]. cbn [map].
      apply sim_and_then; [cbn; auto|apply sim_task; [exact IH|rewrite Hn; exact Hrtc|exact Ht|exact Ha]|exact Hfin]. }
    pose proof (when_same n t Hrtc Et (k_vars k1) ∅) as Hw. destruct (t_when t) as [|c w]; [exact Hbody|].
    apply sim_globals. rewrite Hget. cbv beta.
    match goal with |- msim (match ?x with Ok _ => _ | Err _ => _ end) (match ?y with Ok _ => _ | Err _ => _ end) => replace x with y by (symmetry; exact Hw); destruct y as [[|]|e] end; [exact Hbody| |apply ret_err; cbn; auto].
    freely. clear ans. freely. apply ret_none.
  Qed.

  Lemma sim_root : msim (run_with_tasks k1 tasks1 root) (run_with_tasks k2 tasks2 (pre root)).
  Proof.
    unfold run_with_tasks. rewrite Hsize. apply sim_run_task; [reflexivity|]. constructor; try reflexivity. constructor.
  Qed.

  Lemma kept_1 : kept1 (k_vars k1) good1 [] (run_with_tasks k1 tasks1 root).
  Proof. intros h p Hrun. eapply run_good; [exact Hk1|exact Hrun]. Qed.
  Lemma kept_2 : kept2 (k_vars k2) good2 [] (run_with_tasks k2 tasks2 (pre root)).
  Proof. intros h p Hrun. eapply run_good; [exact keyed2|exact Hrun]. Qed.
  Lemma cancelled_sym h1 h2 c : Mod_Sim.matched (fun a b => M b a) quiet2 quiet1 h2 h1 -> cancelledb h2 c = cancelledb h1 c.
  Proof. intros H. symmetry. apply matched_cancelled. apply (matched_sym _ _ _ _ _ H). Qed.

  Theorem included_runs h p : run_of k1 tasks1 root h p -> exists h' p', run_of k2 tasks2 (pre root) h' p' /\ same_history pre h h'.
  Proof.
    intros Hrun. destruct (sim_run (k_vars k1) (k_vars k2) good1 good2 M quiet1 quiet2 named (same_result pre)) with (p1 := run_with_tasks k1 tasks1 root) (p2 := run_with_tasks k2 tasks2 (pre root)) (h1 := h) (p1' := p)
      as (h' & p' & Hrun' & Hm & _); [intros; unfold named in *; subst; cbn; auto..|intros; apply matched_cancelled; assumption|exact sim_root|exact kept_1|exact kept_2|exact Hrun|].
    exists h', p'. split; [exact Hrun'|]. apply matched_same. exact Hm.
  Qed.
  Theorem included_ends h x : run_of k1 tasks1 root h (Ret x) -> exists h' x', run_of k2 tasks2 (pre root) h' (Ret x') /\ same_history pre h h' /\ same_result pre x x'.
  Proof.
    intros Hrun. destruct (sim_run_end (k_vars k1) (k_vars k2) good1 good2 M quiet1 quiet2 named (same_result pre)) with (p1 := run_with_tasks k1 tasks1 root) (p2 := run_with_tasks k2 tasks2 (pre root)) (h1 := h) (r := x)
      as (h' & x' & Hrun' & Hm & Hx); [intros; unfold named in *; subst; cbn; auto..|intros; apply matched_cancelled; assumption|exact sim_root|exact kept_1|exact kept_2|exact Hrun|].
    exists h', x'. split; [exact Hrun'|]. split; [|exact Hx]. apply matched_same. exact Hm.
  Qed.
  Theorem alone_runs h' p' : run_of k2 tasks2 (pre root) h' p' -> exists h p, run_of k1 tasks1 root h p /\ same_history pre h h'.
  Proof.
    intros Hrun. destruct (sim_run (k_vars k2) (k_vars k1) good2 good1 (fun a b => M b a) quiet2 quiet1 (fun b a => named a b) (fun b a => same_result pre a b)) with (p2 := run_with_tasks k1 tasks1 root) (p1 := run_with_tasks k2 tasks2 (pre root)) (h1 := h') (p1' := p')
      as (h & p & Hrun' & Hm & _); [intros; unfold named in *; subst; cbn; auto..|intros; eapply cancelled_sym; eassumption|apply sim_sym; exact sim_root|exact kept_2|exact kept_1|exact Hrun|].
    exists h, p. split; [exact Hrun'|]. apply matched_same. apply (matched_sym _ _ _ _ _ Hm).
  Qed.
  Theorem alone_ends h' x' : run_of k2 tasks2 (pre root) h' (Ret x') -> exists h x, run_of k1 tasks1 root h (Ret x) /\ same_history pre h h' /\ same_result pre x x'.
  Proof.
    intros Hrun. destruct (sim_run_end (k_vars k2) (k_vars k1) good2 good1 (fun a b => M b a) quiet2 quiet1 (fun b a => named a b) (fun b a => same_result pre a b)) with (p2 := run_with_tasks k1 tasks1 root) (p1 := run_with_tasks k2 tasks2 (pre root)) (h1 := h') (r := x')
      as (h & x & Hrun' & Hm & Hx); [intros; unfold named in *; subst; cbn; auto..|intros; eapply cancelled_sym; eassumption|apply sim_sym; exact sim_root|exact kept_2|exact kept_1|exact Hrun|].
    exists h, x. split; [exact Hrun'|]. split; [|exact Hx]. apply matched_same. apply (matched_sym _ _ _ _ _ Hm).
  Qed.
End Mod.
