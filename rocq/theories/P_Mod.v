(** Theorems about included Babfiles as modules: C92. *)
From Verif Require Import Base Interp_Model Interp_Spec Vars_Proof Types_Model Valid_Model Valid_Spec Path_Model Include_Model Include_Proof P_Valid P_Include
  Run_Model Run_Logic Run_Inv Run_Proof Run_Facts Run_Drive P_Run P_Run_Cmd Run_Main P_Run_Parse P_Dry Local_Spec P_Local Mod_Sim Mod_Spec Mod_Vars Mod_Proof.

Lemma prefixed_refers ns items b : refers (map (prefix_item ns) items) b -> exists d, b = prefixed ns d /\ refers items d.
Proof.
  intros H. remember (map (prefix_item ns) items) as l eqn:E. revert items E.
  induction H as [x rest|o sub rest n H IH|it rest n H IH]; intros items E; (destruct items as [|it' items]; [discriminate E|]); cbn [map] in E; injection E as E1 E2.
  - destruct it'; cbn in E1; try discriminate E1. injection E1 as ->. cbn. eexists. split; [reflexivity|]. constructor.
  - destruct it'; cbn in E1; try discriminate E1. injection E1 as _ Es. destruct (IH _ Es) as (d & -> & Hd). exists d. split; [reflexivity|]. constructor. exact Hd.
  - destruct (IH _ E2) as (d & -> & Hd). exists d. split; [reflexivity|]. apply refers_later. exact Hd.
Qed.

Lemma no_vars_value getenv v o m : smap_get v = ∅ -> iteration_order (smap_get v) o -> resolve_vars getenv v None o = Ok m -> m = ∅.
Proof.
  intros E Ho H. destruct v as [v|]; [|injection H as <-; reflexivity]. cbn in E, Ho. subst v. unfold iteration_order in Ho. rewrite map_to_list_empty in Ho. apply Permutation_nil_r in Ho as ->.
  vm_compute in H. injection H as <-. reflexivity.
Qed.
Lemma some_vars getenv v o m : iteration_order (smap_get v) o -> resolve_vars getenv v None o = Ok m -> resolve_vars getenv (Some (smap_get v)) None o = Ok m.
Proof.
  intros Ho H. destruct v as [v|]; [exact H|]. cbn in Ho |- *. injection H as <-. unfold iteration_order in Ho. rewrite map_to_list_empty in Ho. apply Permutation_nil_r in Ho as ->.
  vm_compute. reflexivity.
Qed.

Global Instance prefixed_Inj ns : Inj eq eq (prefixed ns).
Proof. intros a b. apply pre_inj. Qed.

(** C92. A task of a Babfile does the same when another Babfile, which makes no settings of its own,
    includes that one: under its new name the same runs are possible, with the same events, in which
    the names of tasks are the new ones, and with the same result. *)
Theorem C92_included_as_direct w1 w2 dry path1 path2 name ns bf1 bf2 k1 tasks1 root1 k2 tasks2 root2 :
  world_ok w1 -> world_ok w2 -> same_machine w1 w2 ->
  (forall m, iteration_order m (w_order w1 m)) -> (forall m, iteration_order m (w_order w2 m)) ->
  includes_it w1 w2 path1 path2 ns bf1 bf2 -> no_settings bf2 ->
  load w1 dry path1 name = Ok (k1, tasks1, root1) -> load w2 dry path2 (prefixed ns name) = Ok (k2, tasks2, root2) ->
  is_Some (tasks1 !! name) \/ (exists n i, declares tasks1 n i name) ->
  (forall x, nul_free (w_getenv w1 x)) -> all_nul_free (smap_get (f_vars bf1)) ->
  (forall T t, tasks1 !! T = Some t -> all_nul_free (smap_get (t_vars t))) ->
  portable (smap_get (f_vars bf1)) tasks1 root1 ->
  root2 = prefixed ns root1 /\
  (forall h p, run_of k1 tasks1 root1 h p -> exists h' p', run_of k2 tasks2 root2 h' p' /\ same_history (prefixed ns) h h') /\
  (forall h x, run_of k1 tasks1 root1 h (Ret x) -> exists h' x', run_of k2 tasks2 root2 h' (Ret x') /\ same_history (prefixed ns) h h' /\ same_result (prefixed ns) x x') /\
  (forall h' p', run_of k2 tasks2 root2 h' p' -> exists h p, run_of k1 tasks1 root1 h p /\ same_history (prefixed ns) h h') /\
  (forall h' x', run_of k2 tasks2 root2 h' (Ret x') -> exists h x, run_of k1 tasks1 root1 h (Ret x) /\ same_history (prefixed ns) h h' /\ same_result (prefixed ns) x x').
Proof.
  intros [Ho1 Hv1] [Ho2 Hv2] (Mfs & Mge & Men & Mos & Mte) Hw1 Hw2 [Hf1 Hf2 (p & Hinc & Hpath)] (N1 & N2 & N3 & N4 & N5) Hl1 Hl2 Hname Hgn Hfn Htn Hpo.
  destruct (load_inv _ _ _ _ _ _ _ Hl1) as (r1 & vars1 & Hp1 & Hr1 & -> & -> & ->).
  destruct (load_inv _ _ _ _ _ _ _ Hl2) as (r2 & vars2 & Hp2 & Hr2 & -> & -> & ->).
  pose proof (parse_keyed _ _ _ _ _ _ _ Ho1 Hv1 Hp1) as Hk1. pose proof (parse_keyed _ _ _ _ _ _ _ Ho2 Hv2 Hp2) as Hk2.
  pose proof (C08_parse_leaves_no_dangling_reference _ _ _ _ _ _ _ Ho1 Hv1 Hp1) as Hcl.
  destruct (C11_parse_aliases _ _ _ _ _ _ _ Ho1 Hv1 Hp1) as [A1 A1']. destruct (C11_parse_aliases _ _ _ _ _ _ _ Ho2 Hv2 Hp2) as [A2 A2'].
  apply parse_Ok in Hp1 as [Hp1 _]. apply parse_Ok in Hp2 as [Hp2 _].
  apply parse_sound in Hp1 as ((b1 & Hf1' & (_ & V1 & E1 & S1 & U1 & D1) & T1) & _); [|exact Ho1].
  apply parse_sound in Hp2 as ((b2 & Hf2' & (_ & V2 & E2 & S2 & U2 & D2) & T2) & _); [|exact Ho2].
  assert (Q1 : Some (Some b1) = Some (Some bf1)) by (etransitivity; [symmetry; exact Hf1'|exact Hf1]). injection Q1 as ->.
  assert (Q2 : Some (Some b2) = Some (Some bf2)) by (etransitivity; [symmetry; exact Hf2'|exact Hf2]). injection Q2 as ->. clear Hf1 Hf2. rewrite Mfs in *.
  set (tsk := kmap (M2 := gmap str) (prefixed ns) (inc ns r1 <$> pr_tasks r1) : taskmap).
  assert (Htsk : forall n, tsk !! prefixed ns n = inc ns r1 <$> pr_tasks r1 !! n).
  { intros n. unfold tsk. rewrite (lookup_kmap _ _ n). apply lookup_fmap. }
  assert (Hall : forall m t, tsk !! m = Some t -> exists n, m = prefixed ns n).
  { intros m t Hm. unfold tsk in Hm. apply lookup_kmap_Some in Hm as (n & -> & _); [eauto|apply _]. }
  assert (Hsub : forall m t, tsk !! m = Some t -> pr_tasks r2 !! m = Some t).
  { intros m t Hm. destruct (Hall m t Hm) as (n & ->). rewrite Htsk in Hm. destruct (pr_tasks r1 !! n) as [t0|] eqn:Et; [|discriminate Hm]. injection Hm as <-.
    apply T2. pose proof Et as Et'. apply T1 in Et' as (nss & m & Hh). pose proof Hf1' as Hf1. unfold root_of in Hf1, Hh. rewrite <- Hpath in Hh, Hf1.
    pose proof (has_inc _ _ _ _ _ _ _ _ _ _ Hf2' Hinc Hf1 Hh) as R. exists (ns :: nss), m.
    replace (inc ns r1 t0) with (include_task ns (file_result (include_path (dir (abs_path (w_cwd w2) (clean path2))) p) bf1) n t0); [exact R|].
    unfold inc, include_task. cbn [file_result pr_vars pr_env pr_silent pr_output pr_dir]. rewrite V1, E1, S1, U1, D1, (Hk1 n t0 Et). reflexivity. }
  assert (Hroot : resolve_task_name (pr_aliases r2) (prefixed ns name) = prefixed ns (resolve_task_name (pr_aliases r1) name) /\ is_Some (pr_tasks r1 !! resolve_task_name (pr_aliases r1) name)).
  { unfold resolve_task_name. destruct Hname as [[t Ht]|(n & i & t & Ht & Hi & Hne)].
    - rewrite (A1' name) by eauto. rewrite (A2' (prefixed ns name)) by (exists (inc ns r1 t); apply Hsub; rewrite Htsk, Ht; reflexivity). cbn. split; [reflexivity|eauto].
    - assert (R1 : pr_aliases r1 !! name = Some n) by (apply A1; exists i, t; auto).
      assert (R2 : pr_aliases r2 !! prefixed ns name = Some (prefixed ns n)).
      { apply A2. exists i, (inc ns r1 t). split; [apply Hsub; rewrite Htsk, Ht; reflexivity|]. split; [|destruct ns; discriminate].
        cbn [inc include_task t_alias t_aliases]. destruct i as [|i]; cbn [lookup list_lookup] in Hi |- *.
        - injection Hi as Hi. rewrite Hi. destruct name; [contradiction (Hne eq_refl)|reflexivity].
        - unfold prefix_all. change (map (prefixed ns) (t_aliases t)) with (prefixed ns <$> t_aliases t). change ((prefixed ns <$> t_aliases t) !! i = Some (prefixed ns name)).
          rewrite list_lookup_fmap. change (t_aliases t !! i = Some name) in Hi. rewrite Hi. reflexivity. }
      rewrite R1, R2. cbn. split; [reflexivity|eauto]. }
  destruct Hroot as [Er Hr]. split; [exact Er|]. rewrite Er. set (root := resolve_task_name (pr_aliases r1) name) in *.
  assert (Hk : keyed tsk).
  { intros m t Hm. exact (Hk2 m t (Hsub m t Hm)). }
  assert (Hfrom : same_from tsk (pr_tasks r2) (prefixed ns root)).
  { intros m Hm. enough (Hin : exists n, m = prefixed ns n /\ is_Some (pr_tasks r1 !! n)).
    { destruct Hin as (n & -> & [t Ht]). assert (X : tsk !! prefixed ns n = Some (inc ns r1 t)) by (rewrite Htsk, Ht; reflexivity). rewrite (Hsub _ _ X). exact X. }
    clear -Hm Hr Hcl Htsk. clearbody root. remember (prefixed ns root) as a eqn:Ea. revert root Hr Ea.
    induction Hm as [a|a b c (t & Ht & Hb) Hbc IH]; intros root Hr ->; [eauto|]. rewrite Htsk in Ht. destruct (pr_tasks r1 !! root) as [t0|] eqn:E0; [|discriminate Ht]. injection Ht as <-.
    assert (exists d, b = prefixed ns d /\ edge (pr_tasks r1) root d) as (d & -> & Hd).
    { cbn [inc include_task t_deps t_run] in Hb. destruct Hb as [Hb|Hb].
      - unfold prefix_all in Hb. apply elem_of_list_In, in_map_iff in Hb as (d & <- & Hd). exists d. split; [reflexivity|]. exists t0. split; [exact E0|]. left. apply elem_of_list_In. exact Hd.
      - apply prefixed_refers in Hb as (d & -> & Hd). exists d. split; [reflexivity|]. exists t0. split; [exact E0|]. right. exact Hd. }
    apply (IH d); [eapply Hcl; exact Hd|reflexivity]. }
  destruct (C91_depends_on_what_it_leads_to (loaded w2 dry r2 vars2) tsk (pr_tasks r2) (prefixed ns root) Hk Hk2 Hfrom) as [C1 C2].
  assert (Hvars2 : vars2 = ∅).
  { eapply no_vars_value; [|apply Hw2|exact Hr2]. rewrite V2. exact N1. }
  assert (Hres : resolve_vars (w_getenv w1) (Some (smap_get (pr_vars r1))) None (w_order w1 (smap_get (pr_vars r1))) = Ok vars1) by (apply some_vars; [apply Hw1|exact Hr1]).
  assert (Hsize : size tsk = size (pr_tasks r1)).
  { unfold tsk, kmap, size, map_size. rewrite map_to_list_to_map; [rewrite map_length, map_to_list_fmap; apply map_length|].
    rewrite <- list_fmap_compose, map_to_list_fmap, <- list_fmap_compose.
    enough (Hnd : NoDup (prefixed ns <$> (map_to_list (pr_tasks r1)).*1)) by (rewrite <- list_fmap_compose in Hnd; exact Hnd).
    apply (NoDup_fmap_2 (prefixed ns)). apply NoDup_fst_map_to_list. }
  rewrite <- V1 in Hpo, Hfn.
  assert (Iord : iteration_order (smap_get (pr_vars r1)) (w_order w1 (smap_get (pr_vars r1)))) by apply Hw1.
  assert (Ienv : smap_get (pr_env r2) = ∅) by (rewrite E2; exact N2). rewrite N3 in S2. rewrite N4 in U2. rewrite N5 in D2.
  pose proof (included_runs ns r1 (loaded w1 dry r1 vars1) (loaded w2 dry r2 vars2) (pr_tasks r1) tsk root _ Hk1 eq_refl Hvars2 Ienv S2 U2 D2 Mge Men Mos Mte
    eq_refl eq_refl eq_refl eq_refl Htsk Hall Hsize Hpo Hgn Hfn Htn Iord Hres) as L1.
  pose proof (included_ends ns r1 (loaded w1 dry r1 vars1) (loaded w2 dry r2 vars2) (pr_tasks r1) tsk root _ Hk1 eq_refl Hvars2 Ienv S2 U2 D2 Mge Men Mos Mte
    eq_refl eq_refl eq_refl eq_refl Htsk Hall Hsize Hpo Hgn Hfn Htn Iord Hres) as L2.
  pose proof (alone_runs ns r1 (loaded w1 dry r1 vars1) (loaded w2 dry r2 vars2) (pr_tasks r1) tsk root _ Hk1 eq_refl Hvars2 Ienv S2 U2 D2 Mge Men Mos Mte
    eq_refl eq_refl eq_refl eq_refl Htsk Hall Hsize Hpo Hgn Hfn Htn Iord Hres) as L3.
  pose proof (alone_ends ns r1 (loaded w1 dry r1 vars1) (loaded w2 dry r2 vars2) (pr_tasks r1) tsk root _ Hk1 eq_refl Hvars2 Ienv S2 U2 D2 Mge Men Mos Mte
    eq_refl eq_refl eq_refl eq_refl Htsk Hall Hsize Hpo Hgn Hfn Htn Iord Hres) as L4.
  split; [|split; [|split]].
  - intros h q Hq. destruct (L1 h q Hq) as (h' & q' & H1 & H2). destruct (proj1 (C1 h') (ex_intro _ _ H1)) as (q2 & H3). exists h', q2. split; assumption.
  - intros h x Hq. destruct (L2 h x Hq) as (h' & x' & H1 & H2 & H3). exists h', x'. split; [apply C2; exact H1|]. split; assumption.
  - intros h' q Hq. destruct (proj2 (C1 h') (ex_intro _ _ Hq)) as (q2 & H1). exact (L3 _ _ H1).
  - intros h' x Hq. apply C2 in Hq. exact (L4 _ _ Hq).
Qed.
Print Assumptions C92_included_as_direct.
