(** Every run of the model satisfies the invariant of Run_Inv. *)
From Verif Require Import Base Interp_Model Cond_Model Types_Model Path_Model Run_Model Run_Logic Run_Spec Run_Inv.

Local Arguments resolve_vars : simpl never.
Local Arguments merge_maps : simpl never.
Local Arguments smap_get : simpl never.

Section Proof.
  Context (k : config) (tasks : taskmap) (root : str).
  Context (Hkeyed : forall n t, tasks !! n = Some t -> t_name t = n).
  Notation g := (k_vars k).
  Notation dry := (k_dry k).
  Notation getenv := (k_getenv k).
  Notation G := (step_ok k tasks root).
  Notation good := (good g G).
  Notation safe := (safe g G).
  Notation err_ok := (err_ok k tasks root).
  Notation runs := (runs k tasks).
  Notation called := (called k tasks).
  Notation reached := (reached tasks root).

  Record args_ok (a : args) : Prop := {
    ao_silent : a_silent a = override_silent (a_scope a);
    ao_output : a_output a = override_output (a_scope a);
    ao_piped : a_piped a = in_block (a_scope a);
    ao_nocolor : a_nocolor a = no_color (a_scope a);
    ao_ctx : 0 ∈ a_ctx a }.

  Definition Qtask (n : str) (r : outcome) (h : hist) : Prop :=
    match r with None => ODone n ∈ h | Some e => err_ok h e end.

  (** The tasks below which a call is nested, and the fuel that is left. *)
  Definition stack (fuel : nat) (st : list str) (h : hist) : Prop :=
    NoDup st /\ (forall n, n ∈ st -> is_Some (tasks !! n) /\ status_of h n <> Fresh) /\ 2 + size tasks <= fuel + length st.

  Lemma stack_mono fuel st h h' : h `suffix_of` h' -> stack fuel st h -> stack fuel st h'.
  Proof.
    intros Hs (H1 & H2 & H3). split; [exact H1|]. split; [|exact H3]. intros n Hn. destruct (H2 n Hn) as [A B].
    split; [exact A|]. eapply status_claimed; eassumption.
  Qed.

  Definition rt_ok (fuel : nat) (rt : str -> args -> prog) : Prop :=
    forall E n a h st, args_ok a -> reached n (a_scope a) -> called h (a_scope a) n -> good h -> stack fuel st h ->
      safe E (Qtask n) (fun _ => False) h (rt n a).

  (** ** Commands, logs and references *)
  Lemma interpolate_list_err vars l e : interpolate_list getenv vars l = Err e -> exists s, s ∈ l /\ interpolate getenv vars s = Err e.
  Proof.
    induction l as [|x l IH]; simpl; [discriminate|]. destruct (interpolate getenv vars x) as [v|e1] eqn:E1.
    - destruct (interpolate_list getenv vars l) as [vs|e2]; [discriminate|]. intros H. injection H as ->. destruct (IH eq_refl) as (s & H1 & H2).
      exists s. split; [right; exact H1|exact H2].
    - intros H. injection H as ->. exists x. split; [left|exact E1].
  Qed.
  Lemma interpolate_prompt_err vars p e : interpolate_prompt getenv vars p = Err e -> exists s, s ∈ item_strings (RPrompt p) /\ interpolate getenv vars s = Err e.
  Proof.
    unfold interpolate_prompt. simpl item_strings.
    destruct (interpolate getenv vars (p_message p)) as [msg|e1] eqn:E1.
    2:{ intros H. injection H as ->. exists (p_message p). split; [left|exact E1]. }
    assert (Hopt : forall s e', match s with [] => Ok [] | _ => interpolate getenv vars s end = Err e' -> interpolate getenv vars s = Err e').
    { intros [|b s] e' H; [discriminate|exact H]. }
    destruct (match p_default p with [] => Ok [] | _ => interpolate getenv vars (p_default p) end) as [d|e2] eqn:E2.
    2:{ intros H. injection H as ->. exists (p_default p). split; [right; left|apply Hopt; exact E2]. }
    destruct (match p_placeholder p with [] => Ok [] | _ => interpolate getenv vars (p_placeholder p) end) as [ph|e3] eqn:E3.
    2:{ intros H. injection H as ->. exists (p_placeholder p). split; [right; right; left|apply Hopt; exact E3]. }
    destruct (interpolate_list getenv vars (p_options p)) as [os|e4] eqn:E4.
    2:{ intros H. injection H as ->. apply interpolate_list_err in E4 as (s & H1 & H2). exists s. split; [|exact H2].
        right; right; right. apply elem_of_app. left. exact H1. }
    destruct (interpolate_list getenv vars (p_defaults p)) as [ds|e5] eqn:E5; [discriminate|].
    intros H. injection H as ->. apply interpolate_list_err in E5 as (s & H1 & H2). exists s. split; [|exact H2].
    right; right; right. apply elem_of_app. right. exact H1.
  Qed.
  Lemma interpolate_env_err vars env order e : order ≡ₚ (map_to_list env).*1 -> interpolate_env getenv vars env order = Err e ->
    exists key v, env !! key = Some v /\ interpolate getenv vars v = Err e.
  Proof.
    intros Hp. assert (Hsub : forall key, key ∈ order -> is_Some (env !! key)).
    { intros key Hk. rewrite Hp in Hk. apply elem_of_list_fmap in Hk as ([k' v] & -> & Hk). apply elem_of_map_to_list in Hk. simpl. eauto. }
    clear Hp. induction order as [|key order IH]; simpl; [discriminate|]. destruct (Hsub key) as [v Hv]; [left|]. rewrite Hv. simpl.
    destruct (interpolate getenv vars v) as [v'|e'] eqn:Ei.
    - destruct (interpolate_env getenv vars env order) as [m|e2]; [discriminate|]. intros H. injection H as ->. apply IH; [|reflexivity].
      intros key' Hk. apply Hsub. right. exact Hk.
    - intros H. injection H as ->. eauto.
  Qed.

  Section Leaf.
    Context (t : task) (Ht : tasks !! t_name t = Some t) (pa : list nat) (E : event -> Prop) (O F : own)
            (l : nat) (env : gmap str str) (a : args) (s : scope) (h0 : hist) (it : run_item).
    Notation T := (t_name t).

    Definition leaf_ev (ev : event) : Prop :=
      match ev with
      | OStat t' p _ _ | OEcho t' p _ _ | OEnd t' p _ | OLog t' p _ _ _ | OWould t' p _ => t' = T /\ p = pa
      | OStart x _ => x_task x = T /\ x_path x = pa
      | _ => False
      end.
    Notation fr := (since F leaf_ev h0).

    Record leaf_ctx : Prop := {
      lx_prot : protects E O F;
      lx_own : O (T, pa, false);
      lx_F : F (T, pa, false);
      lx_known : known F h0;
      lx_knownO : known O h0;
      lx_runs : runs h0 T pa it;
      lx_idle : idle h0 T pa;
      lx_unstat : forall d s', OStat T pa d s' ∉ h0;
      lx_env : task_env k h0 t env;
      lx_args : args_ok a;
      lx_reached : reached T s;
      lx_claim : OClaim T s Fresh ∈ h0;
      lx_scope : item_scope T t pa s (a_scope a);
      lx_slot : forall h i j, fr h -> pa = [i; j] -> in_slot h T i j;
      lx_ready : forall h, fr h -> good h -> ODone T ∉ h /\ sees k h t pa (heap_of g h l);
      lx_loc : (l = 0 /\ t_vars t = None) \/ exists pa' m', OAlloc T pa' m' l ∈ h0;
      lx_pa : pa <> [] }.
    Context (Hx : leaf_ctx).

    Definition Qleaf (r : outcome) (h : hist) : Prop :=
      fr h /\ quiet h T pa /\ match r with None => leaf_ok dry h T pa it | Some e => err_ok h e end.

    Lemma leaf_active h : fr h -> good h -> status_of h T = Active.
    Proof.
      intros Hf Hg. destruct (lx_ready Hx h Hf Hg) as [Hd _]. eapply active_of; [exact Hg| |exact Hd].
      eapply status_claimed; [eapply since_suffix; exact Hf|]. apply (lx_known Hx _ (lx_F Hx)).
    Qed.

    Lemma quiet_ext h h' : ext any F h h' -> quiet h T pa -> quiet h' T pa.
    Proof.
      intros He Hq x H1 H2 Hin. destruct (Hq x H1 H2) as (ok & Hok).
      - eapply ext_in; [exact He|exact Hin|]. unfold touches. simpl. rewrite H1, H2. apply (lx_F Hx).
      - exists ok. eapply suffix_elem; [eapply ext_suffix; exact He|exact Hok].
    Qed.
    Lemma idle_quiet h : idle h T pa -> quiet h T pa.
    Proof.
      intros Hi x H1 H2 Hin. exfalso. destruct (Hi _ Hin) as [(?&?&?&H)|[(?&?&H)|[(?&?&H)|(?&?&H)]]]; try discriminate. simpl. rewrite H1, H2. reflexivity.
    Qed.

    Lemma leaf_err h e : fr h -> quiet h T pa -> err_ok h e -> safe E Qleaf O h (Ret (Some e)).
    Proof.
      intros Hf Hq He. apply safe_ret. intros h' Hext Hg. apply ext_protects with (F := F) in Hext; [|apply (lx_prot Hx)]. split; [|split].
      - eapply since_ext; eassumption.
      - eapply quiet_ext; eassumption.
      - eapply err_ok_mono; [eapply ext_suffix; exact Hext|exact He].
    Qed.

    Lemma leaf_done h : fr h -> quiet h T pa -> leaf_ok dry h T pa it -> safe E Qleaf O h (Ret None).
    Proof.
      intros Hf Hq He. apply safe_ret. intros h' Hext Hg. apply ext_protects with (F := F) in Hext; [|apply (lx_prot Hx)]. split; [|split].
      - eapply since_ext; eassumption.
      - eapply quiet_ext; eassumption.
      - eapply leaf_ok_mono; [eapply ext_suffix; exact Hext|exact He].
    Qed.

    Lemma fr_runs h : fr h -> runs h T pa it.
    Proof. intros Hf. eapply runs_mono; [eapply since_suffix; exact Hf|apply (lx_runs Hx)]. Qed.

    (** Effects without a token. *)
    Lemma leaf_free Q h e kk :
      (forall r, tok (obs e r) = None) ->
      fr h ->
      (forall h' r, fr h' -> ext any F h h' -> good h' -> allowed g h' (obs e r) -> fr (obs e r :: h') ->
         body_ok k tasks root h' (obs e r) /\ safe E Q O (obs e r :: h') (kk r)) ->
      safe E Q O h (Vis e kk).
    Proof.
      intros Htok Hf H. eapply safe_do; [apply (lx_prot Hx)|]. intros h' r He Hg Hk Ha.
      assert (Hf' : fr h') by (eapply since_ext; eassumption).
      assert (Hf2 : fr (obs e r :: h')) by (apply since_cons; [exact Hf'|]; unfold touches; rewrite Htok; intros []).
      destruct (H h' r Hf' He Hg Ha Hf2) as [A B].
      split; [split; [rewrite Htok; discriminate|exact A]|]. split; [unfold permitted; rewrite Htok; exact I|exact B].
    Qed.

    (** Effects in the name of the item. *)
    Lemma leaf_act Q h e kk :
      (forall r, tok (obs e r) = Some (T, pa, false)) -> (forall r, leaf_ev (obs e r)) ->
      fr h ->
      (forall h' r, fr h' -> ext any F h h' -> good h' -> allowed g h' (obs e r) -> fr (obs e r :: h') ->
         body_ok k tasks root h' (obs e r) /\ safe E Q O (obs e r :: h') (kk r)) ->
      safe E Q O h (Vis e kk).
    Proof.
      intros Htok Hl Hf H. eapply safe_do; [apply (lx_prot Hx)|]. intros h' r He Hg Hk Ha.
      assert (Hf' : fr h') by (eapply since_ext; eassumption).
      assert (Hf2 : fr (obs e r :: h')) by (apply since_cons; [exact Hf'|]; intros _; apply Hl).
      destruct (H h' r Hf' He Hg Ha Hf2) as [A B].
      split; [split; [|exact A]|]. { rewrite Htok. intros x E1. injection E1 as <-. apply leaf_active; assumption. }
      split; [unfold permitted; rewrite Htok; apply (lx_own Hx)|exact B].
    Qed.

    Lemma leaf_read Q h kk : fr h ->
      (forall h' m, fr h' -> ext any F h h' -> good h' -> sees k h' t pa m -> fr (ORead T pa l m :: h') ->
         safe E Q O (ORead T pa l m :: h') (kk m)) ->
      safe E Q O h (Vis (ERead T pa l) kk).
    Proof.
      intros Hf H. apply leaf_free; [reflexivity|exact Hf|]. simpl. intros h' m Hf' He Hg Ha Hf2.
      assert (Hsee : sees k h' t pa m) by (rewrite Ha; apply (lx_ready Hx); assumption).
      split; [|apply H; assumption]. exists t. split; [exact Ht|]. split; [auto|].
      destruct (lx_loc Hx) as [[H1 H2]|(pa' & m' & Hin)]; [left; auto|right].
      exists pa', m'. eapply suffix_elem; [eapply since_suffix; exact Hf'|exact Hin].
    Qed.

    Lemma idle_ext h h' : ext any F h h' -> idle h T pa -> idle h' T pa.
    Proof. intros He Hi ev Hin Htk. apply (Hi ev); [|exact Htk]. eapply ext_in; [exact He|exact Hin|]. unfold touches. rewrite Htk. apply (lx_F Hx). Qed.
    Lemma idle_cons h ev : idle h T pa -> tok ev = None \/ (exists cmd d, ev = OEcho T pa cmd d) \/ (exists d s', ev = OStat T pa d s') -> idle (ev :: h) T pa.
    Proof.
      intros Hi Hev ev' Hin Htk. apply elem_of_cons in Hin as [->|Hin]; [|apply Hi; assumption].
      destruct Hev as [E1|[(cmd & d & ->)|(d & s' & ->)]]; [congruence|right; left; eauto|right; right; right; eauto].
    Qed.

    Lemma leaf_would h w : fr h -> dry = true -> idle h T pa -> announced k h t pa it w ->
      (forall h', (exists w, OWould T pa w ∈ h') -> leaf_ok dry h' T pa it) ->
      safe E Qleaf O h (Vis (EWould T pa w) (fun _ => Ret None)).
    Proof.
      intros Hf Hd Hi Hw Hok. apply leaf_act; [reflexivity|split; reflexivity|exact Hf|]. simpl. intros h' _ Hf' He Hg _ Hf2.
      split.
      - split; [exact Hd|]. split; [eapply idle_ext; eassumption|]. split; [intros i j Hp; apply (lx_slot Hx); [exact Hf'|exact Hp]|]. exists t, it. split; [exact Ht|]. split; [apply fr_runs; exact Hf'|].
        eapply announced_mono; [eapply ext_suffix; exact He|exact Hw].
      - apply leaf_done; [exact Hf2| |apply Hok; eexists; left]. apply (idle_ext _ _ He) in Hi. apply idle_quiet in Hi.
        intros x H1 H2 Hin. apply elem_of_cons in Hin as [H|Hin]; [discriminate|]. destruct (Hi x H1 H2 Hin) as (ok & Ho). exists ok. right. exact Ho.
    Qed.

    Lemma leaf_env h ln vars env0 f : fr h -> idle h T pa ->
      (forall h' e key v, fr h' -> h `suffix_of` h' -> env0 !! key = Some v -> interpolate getenv vars v = Err e -> err_ok h' (REnv ln e)) ->
      (forall h' out, fr h' -> ext any F h h' -> idle h' T pa -> interp_env k vars env0 out -> safe E Qleaf O h' (f out)) ->
      safe E Qleaf O h (interpolate_env_then k ln vars env0 f).
    Proof.
      intros Hf Hi Herr H. unfold interpolate_env_then. destruct (decide (env0 = ∅)) as [->|Hne].
      - apply H; [exact Hf|apply ext_refl|exact Hi|left; auto].
      - apply leaf_free; [reflexivity|exact Hf|]. simpl. intros h' order Hf' He Hg Ha Hf2. split; [exact I|].
        destruct (interpolate_env getenv vars env0 order) as [out|e] eqn:Ei.
        + apply H; [exact Hf2| | |right; eauto].
          * apply ext_cons; [exact He|intros []|exact I].
          * apply idle_cons; [eapply idle_ext; eassumption|left; reflexivity].
        + apply leaf_err; [exact Hf2| |].
          * apply idle_quiet. apply idle_cons; [eapply idle_ext; eassumption|left; reflexivity].
          * apply interpolate_env_err in Ei as (key & v & H1 & H2); [|exact Ha]. eapply Herr; [exact Hf2| |exact H1|exact H2].
            etransitivity; [eapply ext_suffix; exact He|apply suffix_cons_self].
    Qed.

    Lemma leaf_dir h c vars f : it = RCmd c -> fr h -> idle h T pa -> (forall d s', OStat T pa d s' ∉ h) -> sees k h t pa vars ->
      (forall e, interpolate getenv vars (first_dir (c_dir c) (t_dir t) (k_dir k)) = Err e -> err_ok h (RDirInterp T (c_line c) e)) ->
      (forall h' d, fr h' -> h `suffix_of` h' -> idle h' T pa -> dir_ok k h' t pa (c_dir c) vars d -> safe E Qleaf O h' (f d)) ->
      safe E Qleaf O h (resolve_dir_then k t pa (c_line c) (c_dir c) vars f).
    Proof.
      intros Hit Hf Hi Hun Hsee Herr H. unfold resolve_dir_then.
      assert (Ed : (match match c_dir c with [] => t_dir t | _ => c_dir c end with [] => k_dir k | _ => match c_dir c with [] => t_dir t | _ => c_dir c end end)
                   = first_dir (c_dir c) (t_dir t) (k_dir k)).
      { unfold first_dir. destruct (c_dir c); [|reflexivity]. destruct (t_dir t); reflexivity. }
      rewrite Ed. destruct (first_dir (c_dir c) (t_dir t) (k_dir k)) as [|b bs] eqn:E2.
      - apply H; [exact Hf|reflexivity|exact Hi|]. left. auto.
      - destruct (interpolate getenv vars (b :: bs)) as [d3|e] eqn:Ei; [|apply leaf_err; [exact Hf|apply idle_quiet; exact Hi|apply Herr; reflexivity]].
        assert (Hdg : dir_given k t (c_dir c) vars (clean (if is_abs d3 then d3 else join2 (dir (t_source t)) d3))).
        { unfold dir_given. rewrite E2. split; [discriminate|]. exists d3. auto. }
        apply leaf_act; [reflexivity|split; reflexivity|exact Hf|]. simpl. intros h' st Hf' He Hg Ha Hf2.
        assert (Hi' : idle h' T pa) by (eapply idle_ext; eassumption).
        split.
        { split; [exact Hi'|]. split; [intros i j Hp; apply (lx_slot Hx); [exact Hf'|exact Hp]|]. split.
          - intros d' s' Hin. apply (Hun d' s'). eapply ext_in; [exact He|exact Hin|]. unfold touches. simpl. apply (lx_F Hx).
          - exists t, c, vars. split; [exact Ht|]. split; [rewrite <- Hit; apply fr_runs; exact Hf'|]. split; [|exact Hdg].
            eapply sees_mono; [eapply ext_suffix; exact He|exact Hsee]. }
        assert (Hi2 : forall d s', idle (OStat T pa d s' :: h') T pa) by (intros d s'; apply idle_cons; [exact Hi'|right; right; eauto]).
        destruct st.
        1-3: apply leaf_err; [exact Hf2|apply idle_quiet; apply Hi2|]; exists pa; eexists; (split; [|left]); discriminate.
        apply H; [exact Hf2| |apply Hi2|].
        + etransitivity; [eapply ext_suffix; exact He|apply suffix_cons_self].
        + right. split; [exact Hdg|left].
    Qed.

    Lemma leaf_at : item_at t pa it.
    Proof. destruct (lx_runs Hx) as (t' & Ht' & Hat & _). rewrite Ht in Ht'. injection Ht' as <-. exact Hat. Qed.

    Lemma safe_command c : it = RCmd c -> safe E Qleaf O h0 (execute_command k c t pa l env a).
    Proof.
      intros Hit. unfold execute_command. destruct (trim_space (c_cmd c)) as [|tb tbs] eqn:Etr.
      { apply leaf_err; [apply since_refl|apply idle_quiet; apply (lx_idle Hx)|]. exists pa, c. split; [rewrite <- Hit; apply (lx_runs Hx)|exact Etr]. }
      apply leaf_read; [apply since_refl|]. intros h1 vars Hf1 He1 Hg1 Hsee Hf1'.
      assert (Hi1 : idle (ORead T pa l vars :: h1) T pa).
      { apply idle_cons; [eapply idle_ext; [exact He1|apply (lx_idle Hx)]|left; reflexivity]. }
      destruct (interpolate getenv vars (c_cmd c)) as [cmd|e] eqn:Ecmd.
      2:{ apply leaf_err; [exact Hf1'|apply idle_quiet; exact Hi1|]. exists T, t, pa, (RCmd c), (c_cmd c), vars. split; [exact Ht|].
          split; [rewrite <- Hit; apply fr_runs; exact Hf1'|]. split; [reflexivity|]. split; [left|]. split; [eapply sees_mono; [apply suffix_cons_self|exact Hsee]|exact Ecmd]. }
      apply leaf_env; [exact Hf1'|exact Hi1| |].
      { intros h' e key v Hf' Hs' Hkey Hv. exists T, t, vars, (smap_get (merge_maps (Some env) (c_env c))), key, v. split; [exact Ht|]. split; [|auto]. right.
        exists pa, c, env. split; [reflexivity|]. split; [rewrite <- Hit; apply fr_runs; exact Hf'|]. split; [eapply sees_mono; [etransitivity; [apply suffix_cons_self|exact Hs']|exact Hsee]|].
        split; [eapply task_env_mono; [eapply since_suffix; exact Hf'|apply (lx_env Hx)]|reflexivity]. }
      intros h2 cenv Hf2 Hx2 Hi2 Hcenv. pose proof (ext_suffix _ _ _ _ Hx2) as Hs2.
      apply leaf_dir; [exact Hit|exact Hf2|exact Hi2| | | |].
      { intros d s' Hin. apply (lx_unstat Hx d s').
        assert (Htc : touches F (OStat T pa d s')) by (unfold touches; simpl; apply (lx_F Hx)).
        apply (ext_in _ _ _ _ _ Hx2 Hin) in Htc as Hin1. apply elem_of_cons in Hin1 as [H|Hin1]; [discriminate|].
        exact (ext_in _ _ _ _ _ He1 Hin1 Htc). }
      { eapply sees_mono; [etransitivity; [apply suffix_cons_self|exact Hs2]|exact Hsee]. }
      { intros e Hv. exists t, pa, c, vars. split; [exact Ht|]. split; [rewrite <- Hit; apply fr_runs; exact Hf2|]. split; [reflexivity|].
        split; [eapply sees_mono; [etransitivity; [apply suffix_cons_self|exact Hs2]|exact Hsee]|exact Hv]. }
      intros h3 d Hf3 Hs3 Hi3 Hd.
      destruct dry eqn:Edry.
      { apply leaf_would; [exact Hf3|exact Edry|exact Hi3| |].
        { rewrite Hit. exists vars, env, cenv. split; [eapply sees_mono; [etransitivity; [apply suffix_cons_self|etransitivity; [exact Hs2|exact Hs3]]|exact Hsee]|].
          split; [rewrite Etr; discriminate|]. split; [exact Ecmd|]. split; [eapply task_env_mono; [eapply since_suffix; exact Hf3|apply (lx_env Hx)]|].
          split; [exact Hcenv|]. split; [reflexivity|exact Hd]. }
        intros h' Hin. rewrite Hit. simpl. rewrite Edry. exact Hin. }
      set (show := is_output [c_output c; a_output a; t_output t; k_output k]).
      assert (Hsee3 : sees k h3 t pa vars).
      { eapply sees_mono; [|exact Hsee]. etransitivity; [apply suffix_cons_self|]. etransitivity; eassumption. }
      assert (Hgo : forall h4, fr h4 -> h3 `suffix_of` h4 -> idle h4 T pa ->
        (is_silent [c_silent c; a_silent a; t_silent t; k_silent k] = false -> OEcho T pa cmd (a_out a) ∈ h4) ->
        safe E Qleaf O h4
          (Vis (EOrder cenv) (fun order =>
             Vis (EStart (Proc T pa (a_scope a) cmd
                    (command_environ (k_environ k) (a_piped a && show) (a_nocolor a) cenv order) d show
                    (negb (a_piped a) && show) (a_ctx a) (a_out a)))
               (fun started => if started then
                  Vis (EEnd T pa) (fun ok => if ok then Ret None else Ret (Some (RCmdFailed T cmd)))
                else Ret (Some (RCmdFailed T cmd)))))).
      { intros h4 Hf4 Hs4 Hi4 Hecho. apply leaf_free; [reflexivity|exact Hf4|]. simpl. intros h5 order Hf5 He5 Hg5 Hord Hf5'. split; [exact I|].
        set (x := Proc T pa (a_scope a) cmd _ d show _ (a_ctx a) (a_out a)).
        apply leaf_act; [reflexivity|split; reflexivity|exact Hf5'|]. intros h6 b Hf6 He6 Hg6 Ha6 Hf6'.
        assert (Hs36 : h3 `suffix_of` h6).
        { etransitivity; [exact Hs4|]. etransitivity; [eapply ext_suffix; exact He5|].
          etransitivity; [apply suffix_cons_self|]. eapply ext_suffix; exact He6. }
        assert (Hi6 : idle h6 T pa).
        { eapply idle_ext; [exact He6|]. apply idle_cons; [eapply idle_ext; eassumption|left; reflexivity]. }
        assert (Hs06 : h0 `suffix_of` h6) by (eapply since_suffix; exact Hf6).
        split.
        - constructor; try assumption.
          + apply (ao_ctx a (lx_args Hx)).
          + intros i j Hp. apply (lx_slot Hx); [exact Hf6|exact Hp].
          + exists t, c, s, vars, env, cenv, order. simpl. split; [exact Ht|].
            split; [rewrite <- Hit; apply fr_runs; exact Hf6|]. split; [eapply suffix_elem; [exact Hs06|apply (lx_claim Hx)]|]. split; [apply (lx_scope Hx)|].
            split; [eapply sees_mono; [exact Hs36|exact Hsee3]|]. split; [rewrite Etr; discriminate|]. split; [exact Ecmd|].
            split; [eapply task_env_mono; [exact Hs06|apply (lx_env Hx)]|]. split; [exact Hcenv|]. split; [exact Hord|].
            split; [rewrite (ao_piped a (lx_args Hx)), (ao_nocolor a (lx_args Hx)); reflexivity|].
            split; [eapply dir_ok_mono; [exact Hs36|exact Hd]|].
            split; [unfold show; rewrite (ao_output a (lx_args Hx)); reflexivity|].
            split; [rewrite (ao_piped a (lx_args Hx)); reflexivity|].
            rewrite <- (ao_silent a (lx_args Hx)). intros Hsil. eapply suffix_elem; [|apply Hecho; exact Hsil].
            etransitivity; [eapply ext_suffix; exact He5|]. etransitivity; [apply suffix_cons_self|]. eapply ext_suffix; exact He6.
        - destruct b.
          2:{ apply leaf_err; [exact Hf6'| |].
              { apply idle_quiet in Hi6. intros x' H1 H2 Hin. apply elem_of_cons in Hin as [H|Hin]; [discriminate|].
                destruct (Hi6 x' H1 H2 Hin) as (ok & Ho). exists ok. right. exact Ho. }
              exists x. split; [reflexivity|]. split; [reflexivity|]. left. left. }
          apply leaf_act; [reflexivity|split; reflexivity|exact Hf6'|]. intros h7 ok Hf7 He7 Hg7 Ha7 Hf7'.
          assert (Hx7 : OStart x true ∈ h7) by (eapply suffix_elem; [eapply ext_suffix; exact He7|left]).
          split.
          + split; [exists x; auto|]. intros ok' Hin.
            assert (Hin6 : OEnd T pa ok' ∈ OStart x true :: h6).
            { eapply ext_in; [exact He7|exact Hin|]. unfold touches. simpl. apply (lx_F Hx). }
            apply elem_of_cons in Hin6 as [H|Hin6]; [discriminate|].
            destruct (Hi6 _ Hin6 eq_refl) as [(?&?&?&H)|[(?&?&H)|[(?&?&H)|(?&?&H)]]]; discriminate.
          + destruct ok.
            * apply leaf_done; [exact Hf7'|intros x' _ _ _; exists true; left|]. rewrite Hit. simpl. rewrite Edry. split; [|left].
              exists x. split; [reflexivity|]. split; [reflexivity|]. right. exact Hx7.
            * apply leaf_err; [exact Hf7'|intros x' _ _ _; exists false; left|]. exists x. split; [reflexivity|]. split; [reflexivity|]. right.
              split; [right; exact Hx7|left]. }
      cbv zeta. destruct (is_silent [c_silent c; a_silent a; t_silent t; k_silent k]) eqn:Esil.
      - apply Hgo; [exact Hf3|reflexivity|exact Hi3|discriminate].
      - apply leaf_act; [reflexivity|split; reflexivity|exact Hf3|]. intros h4 r4 Hf4 He4 Hg4 _ Hf4'. split.
        + split; [exact Edry|]. split; [eapply idle_ext; eassumption|]. split; [intros i j Hp; apply (lx_slot Hx); [exact Hf4|exact Hp]|].
          exists t, c, s, (a_scope a), vars. split; [exact Ht|]. split; [rewrite <- Hit; apply fr_runs; exact Hf4|].
          split; [eapply suffix_elem; [eapply since_suffix; exact Hf4|apply (lx_claim Hx)]|]. split; [apply (lx_scope Hx)|].
          split; [eapply sees_mono; [eapply ext_suffix; exact He4|exact Hsee3]|]. split; [exact Ecmd|].
          rewrite <- (ao_silent a (lx_args Hx)). exact Esil.
        + apply Hgo; [exact Hf4'| | |intros _; left].
          * etransitivity; [eapply ext_suffix; exact He4|apply suffix_cons_self].
          * apply idle_cons; [eapply idle_ext; eassumption|right; left; eauto].
    Qed.

    Context (fuel : nat) (rt : str -> args -> prog) (Hrt : rt_ok fuel rt) (st : list str) (Hst : stack fuel st h0) (Hg0 : good h0).

    Lemma reached_item r : it = RTask r -> reached (r_task r) (FRef T pa r :: a_scope a).
    Proof.
      intros Hit. destruct (lx_runs Hx) as (t' & Ht' & Hat & _). rewrite Ht in Ht'. injection Ht' as <-. rewrite Hit in Hat.
      pose proof (lx_scope Hx) as Hsc. pose proof (lx_reached Hx) as Hre.
      destruct pa as [|i [|j [|? ?]]]; simpl in *; try contradiction.
      - rewrite Hsc. eapply reached_ref; eassumption.
      - destruct Hat as (o & items & H1 & H2). destruct Hsc as (o' & items' & H3 & ->).
        rewrite H1 in H3. injection H3 as <- <-. eapply reached_par; eassumption.
    Qed.

    Lemma safe_run_item : (match it with RPrompt _ | RPar _ _ => True | _ => False end -> exists i j, pa = [i; j]) ->
      safe E Qleaf O h0 (execute_run_item k rt it t pa l env a).
    Proof.
      intros Hkid. destruct it as [c|r|lg|p|o items] eqn:Hit; simpl.
      - apply safe_command. exact Hit.
      - destruct dry eqn:Edry.
        + apply leaf_would; [apply since_refl|exact Edry|apply (lx_idle Hx)|rewrite Hit; reflexivity|]. intros h' Hin. rewrite Hit. simpl. rewrite Edry. exact Hin.
        + eapply safe_conseq; [|eapply (safe_call _ _ _ (Qtask (r_task r)) O F); [apply (lx_prot Hx)|apply (lx_known Hx)|apply (lx_knownO Hx)|]].
          2:{ pose proof (lx_args Hx) as [A1 A2 A3 A4 A5].
              apply Hrt with st; [constructor; simpl| | |exact Hg0|exact Hst].
              - rewrite A1. unfold override_silent. simpl. destruct (r_silent r); [reflexivity|]. simpl. destruct (override _ _ _); reflexivity.
              - rewrite A2. unfold override_output. simpl. destruct (r_output r); [reflexivity|]. simpl. destruct (override _ _ _); reflexivity.
              - exact A3.
              - exact A4.
              - exact A5.
              - apply reached_item. exact Hit.
              - simpl. split; [exact Edry|]. split; [rewrite <- Hit; apply (lx_runs Hx)|]. split; [reflexivity|].
                exists t, s. split; [exact Ht|]. split; [apply (lx_claim Hx)|apply (lx_scope Hx)]. }
          intros res h' Hs' Hg' [HQ He]. split; [eapply since_ext; [apply since_refl|exact He]|].
          split; [eapply quiet_ext; [exact He|apply idle_quiet; apply (lx_idle Hx)]|].
          destruct res; [exact HQ|]. rewrite Hit. simpl. rewrite Edry. exact HQ.
      - apply leaf_read; [apply since_refl|]. intros h1 vars Hf1 He1 Hg1 Hsee Hf1'.
        assert (Hi1 : idle (ORead T pa l vars :: h1) T pa).
        { apply idle_cons; [eapply idle_ext; [exact He1|apply (lx_idle Hx)]|left; reflexivity]. }
        destruct (interpolate getenv vars (l_log lg)) as [text|e] eqn:Ei.
        2:{ apply leaf_err; [exact Hf1'|apply idle_quiet; exact Hi1|]. exists T, t, pa, (RLog lg), (l_log lg), vars. split; [exact Ht|].
            split; [rewrite <- Hit; apply fr_runs; exact Hf1'|]. split; [reflexivity|]. split; [left|]. split; [eapply sees_mono; [apply suffix_cons_self|exact Hsee]|exact Ei]. }
        destruct dry eqn:Edry.
        + apply leaf_would; [exact Hf1'|exact Edry|exact Hi1|rewrite Hit; exists vars; split; [eapply sees_mono; [apply suffix_cons_self|exact Hsee]|auto]|]. intros h' Hin. rewrite Hit. simpl. rewrite Edry. exact Hin.
        + apply leaf_act; [reflexivity|split; reflexivity|exact Hf1'|]. intros h2 u Hf2 He2 Hg2 _ Hf2'. split.
          * split; [exact Edry|]. split; [eapply idle_ext; eassumption|].
            split; [intros i j Hp; apply (lx_slot Hx); [exact Hf2|exact Hp]|].
            exists t, lg, vars. split; [exact Ht|]. split; [rewrite <- Hit; apply fr_runs; exact Hf2|].
            split; [eapply sees_mono; [|exact Hsee]; etransitivity; [apply suffix_cons_self|eapply ext_suffix; exact He2]|]. auto.
          * apply leaf_done; [exact Hf2'| |rewrite Hit; simpl; rewrite Edry; exists text, (a_out a); left].
            apply (idle_ext _ _ He2) in Hi1. apply idle_quiet in Hi1. intros x' H1 H2 Hin. apply elem_of_cons in Hin as [H|Hin]; [discriminate|].
            destruct (Hi1 x' H1 H2 Hin) as (ok & Ho). exists ok. right. exact Ho.
      - apply leaf_err; [apply since_refl|apply idle_quiet; apply (lx_idle Hx)|]. destruct Hkid as (i & j & Hp); [exact I|].
        exists T, i, j, (RPrompt p). split; [rewrite <- Hp, <- Hit; apply (lx_runs Hx)|exact I].
      - apply leaf_err; [apply since_refl|apply idle_quiet; apply (lx_idle Hx)|]. destruct Hkid as (i & j & Hp); [exact I|].
        exists T, i, j, (RPar o items). split; [rewrite <- Hp, <- Hit; apply (lx_runs Hx)|exact I].
    Qed.
  End Leaf.

  (** ** The loop of a task *)
  Lemma since_good F P h h' : since F P h h' -> good h' -> since F (fun ev => P ev /\ exists h1, step_ok k tasks root h1 ev) h h'.
  Proof.
    intros (q & -> & Hq) Hg. exists q. split; [reflexivity|]. induction q as [|ev q IH]; [constructor|].
    apply Forall_cons in Hq as [H1 H2]. simpl in Hg. apply good_tail in Hg as (Hg & _ & HG). constructor; [|auto].
    intros Ht. split; [auto|]. exists (q ++ h). exact HG.
  Qed.

  Lemma returns_in T pa h j r : (j, r) ∈ returns T pa h <-> OReturn T pa j r ∈ h.
  Proof.
    induction h as [|ev h IH]; [split; inversion 1|].
    assert (Hskip : (forall j' r', ev <> OReturn T pa j' r') -> (j, r) ∈ returns T pa (ev :: h) <-> OReturn T pa j r ∈ ev :: h).
    { intros Hn. rewrite returns_other by exact Hn. rewrite IH, elem_of_cons. split; [auto|]. intros [H|H]; [exfalso; eapply Hn; eauto|exact H]. }
    destruct ev; try (apply Hskip; discriminate).
    destruct (decide (t = T /\ p = pa)) as [[-> ->]|Hne].
    - simpl. rewrite decide_True by auto. rewrite elem_of_app, elem_of_list_singleton, IH, elem_of_cons.
      split; intros [H|H]; auto; [injection H as -> ->; auto|]. injection H as -> ->; auto.
    - apply Hskip. intros j' r' H. injection H as -> -> _ _. auto.
  Qed.
  Lemma slots_none T pa h : (forall j, OSlot T pa j ∉ h) -> slots T pa h = 0.
  Proof.
    induction h as [|ev h IH]; intros Hn; [reflexivity|].
    assert (IH' : slots T pa h = 0) by (apply IH; intros j Hj; apply (Hn j); right; exact Hj).
    destruct ev; try exact IH'. simpl. destruct (decide _) as [[-> ->]|]; [|exact IH']. exfalso. apply (Hn j). left.
  Qed.
  Lemma first_err_none log : first_err log = None -> forall j r, (j, r) ∈ log -> r = None.
  Proof.
    induction log as [|[j' [e|]] log IH]; intros H j r Hin; [inversion Hin|discriminate|].
    apply elem_of_cons in Hin as [E1|Hin]; [congruence|]. eapply IH; eassumption.
  Qed.
  Lemma first_err_some log e : first_err log = Some e -> exists j e', e = RItem j e' /\ (j, Some e') ∈ log.
  Proof.
    induction log as [|[j' [e'|]] log IH]; intros H; [discriminate| |].
    - injection H as <-. exists j', e'. split; [reflexivity|left].
    - destruct (IH H) as (j & e' & -> & Hin). exists j, e'. split; [reflexivity|right; exact Hin].
  Qed.

  Lemma first_err_app log j r : first_err (log ++ [(j, r)]) =
    match first_err log with Some e => Some e | None => match r with Some e => Some (RItem j e) | None => None end end.
  Proof. induction log as [|[j' [e|]] log IH]; simpl; [destruct r; reflexivity|reflexivity|exact IH]. Qed.

  Lemma first_failure_cons T pa ev h r : (forall j e, ev <> OReturn T pa j (Some e)) -> first_failure h T pa r -> first_failure (ev :: h) T pa r.
  Proof.
    intros Hn. destruct r as [e|]; simpl.
    - intros (h1 & h2 & j & e' & -> & -> & H). exists (ev :: h1), h2, j, e'. auto.
    - intros H j e Hin. apply elem_of_cons in Hin as [<-|Hin]; [eapply Hn; reflexivity|eapply H; exact Hin].
  Qed.
  Lemma first_err_failure T pa h : first_failure h T pa (first_err (returns T pa h)).
  Proof.
    induction h as [|ev h IH]; [simpl; intros j e H; inversion H|].
    assert (Hc : (exists j r, ev = OReturn T pa j r) \/ forall j r, ev <> OReturn T pa j r).
    { destruct ev; try (right; discriminate).
      all: match goal with |- context[OReturn ?x ?y _ _ = _] => destruct (decide (x = T)); [destruct (decide (y = pa)); [subst; left; eauto|]|]; right; congruence end. }
    destruct Hc as [(j & r & ->)|Hn].
    - simpl. rewrite decide_True by auto. rewrite first_err_app. destruct (first_err (returns T pa h)) as [e|] eqn:Ef.
      + destruct IH as (h1 & h2 & j' & e' & -> & -> & H). exists (OReturn T pa j r :: h1), h2, j', e'. auto.
      + destruct r as [e|]; [|apply first_failure_cons; [discriminate|exact IH]]. exists [], h, j, e. auto.
    - rewrite returns_other by exact Hn. apply first_failure_cons; [|exact IH]. intros j e. apply Hn.
  Qed.

  Section Task.
    Context (t : task) (Ht : tasks !! t_name t = Some t) (E : event -> Prop) (O : own) (a : args)
            (fuel : nat) (rt : str -> args -> prog) (Hrt : rt_ok fuel rt) (st : list str).
    Notation T := (t_name t).
    Notation F := (owns_task T).
    Context (HO : within F O) (Hargs : args_ok a) (Hreach : reached T (a_scope a)).

    Definition begun (h : hist) : Prop := task_chosen k h t /\ OClaim T (a_scope a) Fresh ∈ h.
    Lemma begun_mono h h' : h `suffix_of` h' -> begun h -> begun h'.
    Proof. intros Hs [A B]. split; [eapply task_chosen_mono; eassumption|eapply suffix_elem; eassumption]. Qed.

    Definition before (i : nat) (chk : bool) (ev : event) : Prop :=
      (exists b d, ev = OHeader T b d) \/ (exists m l, ev = OAlloc T [] m l) \/
      (exists x i' q, tok ev = Some x /\ x.1.2 = i' :: q /\ i' < i) \/
      (chk = true /\ exists c, ev = OCheck T i c false).

    Record loc (env : gmap str str) (l i : nat) (chk : bool) (h : hist) : Prop := {
      lc_known : status_of h T <> Fresh;
      lc_knownO : known O h;
      lc_events : owned_events T h (before i chk);
      lc_slots : forall pa j, OSlot T pa j ∈ h -> OFree T pa j ∈ h;
      lc_deps : deps_done h t;
      lc_earlier : earlier k h T t i;
      lc_env : task_env k h t env;
      lc_vars : match t_vars t with None => l = 0 | Some _ => (exists m, OAlloc T [] m l ∈ h) /\ task_vars k h t i (heap_of g h l) end;
      lc_stack : stack fuel st h;
      lc_begun : begun h }.

    Lemma prot : protects E O F.
    Proof. apply protects_within. exact HO. Qed.

    Lemma touches_F ev x : tok ev = Some x -> x.1.1 = T -> touches F ev.
    Proof. intros H1 H2. unfold touches. rewrite H1. exact H2. Qed.

    Lemma loc_ext env l i chk h h' : good h' -> ext any F h h' -> loc env l i chk h -> loc env l i chk h'.
    Proof.
      intros Hg He [A1 A1' A2 A3 A4 A5 A6 A7 A8 A9]. pose proof (ext_suffix _ _ _ _ He) as Hs. constructor.
      - eapply status_claimed; eassumption.
      - eapply known_suffix; eassumption.
      - intros ev x Hin Hx HT. eapply A2; [eapply ext_in; [exact He|exact Hin|eapply touches_F; eassumption]|exact Hx|exact HT].
      - intros pa j Hin. eapply suffix_elem; [exact Hs|]. apply A3. eapply ext_in; [exact He|exact Hin|]. reflexivity.
      - eapply deps_done_mono; eassumption.
      - eapply earlier_mono; eassumption.
      - eapply task_env_mono; eassumption.
      - destruct (t_vars t); [|exact A7]. destruct A7 as [(m & Hm) A7]. split; [exists m; eapply suffix_elem; eassumption|].
        erewrite (heap_base k tasks root h h' T m l (fun _ => False)); [eapply task_vars_mono; eassumption|exact Hg| |exact Hm|auto].
        eapply since_ext; [apply since_refl|exact He].
      - eapply stack_mono; eassumption.
      - eapply begun_mono; eassumption.
    Qed.

    Lemma loc_sees env l i chk h : loc env l i chk h -> sees k h t [i] (heap_of g h l).
    Proof.
      intros HL. pose proof (lc_vars _ _ _ _ _ HL) as Hv. unfold sees. destruct (t_vars t); [apply Hv|]. rewrite Hv. exists h. split; [reflexivity|reflexivity].
    Qed.

    Lemma loc_notdone env l i chk h : loc env l i chk h -> ODone T ∉ h.
    Proof.
      intros HL Hin. destruct (lc_events _ _ _ _ _ HL _ _ Hin eq_refl eq_refl) as [(b & d & H)|[(m & l' & H)|[(x & i' & q & H1 & H2 & _)|(_ & c & H)]]]; try discriminate.
      injection H1 as <-. discriminate.
    Qed.
    Lemma loc_active env l i chk h : good h -> loc env l i chk h -> status_of h T = Active.
    Proof. intros Hg HL. eapply active_of; [exact Hg|apply (lc_known _ _ _ _ _ HL)|eapply loc_notdone; exact HL]. Qed.

    Lemma loc_here env l i chk h ev b q : loc env l i chk h -> ev ∈ h -> tok ev = Some (T, i :: q, b) ->
      chk = true /\ exists c, ev = OCheck T i c false.
    Proof.
      intros HL Hin Hx. destruct (lc_events _ _ _ _ _ HL _ _ Hin Hx eq_refl) as [(b' & d' & ->)|[(m & l' & ->)|[(x & i' & q' & H1 & H2 & Hlt)|H]]]; try discriminate; [|exact H].
      rewrite Hx in H1. injection H1 as <-. simpl in H2. injection H2 as -> ->. lia.
    Qed.

    (** Past item [i]. *)
    Lemma loc_next env l i chk P h h' it : loc env l i chk h -> since F P h h' -> good h' ->
      (forall ev, P ev -> forall x, tok ev = Some x -> exists q, x.1.2 = i :: q) ->
      (forall pa j, P (OSlot T pa j) -> OSlot T pa j ∈ h' -> OFree T pa j ∈ h') ->
      t_run t !! i = Some it -> settled dry h' T i it ->
      (match t_vars t with None => True | Some _ => task_vars k h' t (S i) (heap_of g h' l) end) ->
      loc env l (S i) false h'.
    Proof.
      intros [A1 A1' A2 A3 A4 A5 A6 A7 A8 A9] Hsi Hg HP Hsl Hit Hset Hv. pose proof (since_suffix _ _ _ _ Hsi) as Hs. constructor.
      - eapply status_claimed; eassumption.
      - eapply known_suffix; eassumption.
      - intros ev x Hin Hx HT. destruct (since_in _ _ _ _ _ Hsi Hin (touches_F _ _ Hx HT)) as [Hin'|HPev].
        + destruct (A2 ev x Hin' Hx HT) as [H|[H|[(x' & i' & q & H1 & H2 & H3)|(_ & c & ->)]]]; [left; exact H|right; left; exact H| |].
          * right; right; left. exists x', i', q. split; [exact H1|]. split; [exact H2|lia].
          * right; right; left. exists (T, [i], false), i, []. split; [reflexivity|]. split; [reflexivity|lia].
        + destruct (HP ev HPev x Hx) as (q & Hq). right; right; left. exists x, i, q. split; [exact Hx|]. split; [exact Hq|lia].
      - intros pa j Hin. destruct (since_in _ _ _ _ _ Hsi Hin eq_refl) as [Hin'|HPev]; [eapply suffix_elem; [exact Hs|auto]|auto].
      - eapply deps_done_mono; eassumption.
      - intros i' it' Hlt Hit'. destruct (decide (i' = i)) as [->|Hne]; [rewrite Hit in Hit'; injection Hit' as <-; exact Hset|].
        eapply settled_mono; [exact Hs|]. apply A5; [lia|exact Hit'].
      - eapply task_env_mono; eassumption.
      - destruct (t_vars t); [|exact A7]. destruct A7 as [(m & Hm) _]. split; [exists m; eapply suffix_elem; eassumption|exact Hv].
      - eapply stack_mono; eassumption.
      - eapply begun_mono; eassumption.
    Qed.

    Lemma vars_next env l i chk P h h' it : loc env l i chk h -> since F P h h' -> good h' ->
      (forall pa key v, ~ P (OWrite T pa l key v)) -> t_run t !! i = Some it ->
      (forall p, it <> RPrompt p) \/ (exists w, OSkip T [i] w ∈ h') \/ (exists w, OWould T [i] w ∈ h') ->
      match t_vars t with None => True | Some _ => task_vars k h' t (S i) (heap_of g h' l) end.
    Proof.
      intros HL Hsi Hg HP Hit Hsame. pose proof (lc_vars _ _ _ _ _ HL) as Hv. destruct (t_vars t); [|exact I]. destruct Hv as [(m & Hm) Hv].
      rewrite (heap_base k tasks root h h' T m l P Hg Hsi Hm HP).
      eapply tv_same; [eapply task_vars_mono; [eapply since_suffix; exact Hsi|exact Hv]|exact Hit|exact Hsame].
    Qed.

    Definition vars_ok (l i : nat) (h : hist) : Prop :=
      match t_vars t with None => True | Some _ => task_vars k h t i (heap_of g h l) end.

    (** Something in the name of item [i], other than its end or its being skipped. *)
    Definition here (i : nat) (ev : event) : Prop :=
      (exists x q, tok ev = Some x /\ x.1.2 = i :: q) /\ (forall r, ev <> ORet T [i] r) /\ forall w, ev <> OSkip T [i] w.

    Definition Qitem (env : gmap str str) (l i : nat) (it : run_item) (r : outcome) (h : hist) : Prop :=
      exists h0, loc env l i true h0 /\ since F (here i) h0 h /\ quiet h T [i] /\ (forall pa j, OSlot T pa j ∈ h -> OFree T pa j ∈ h) /\
        match r with
        | None => vars_ok l (S i) h /\ item_ok dry h T i it
        | Some e => err_ok h e
        end /\
        forall o items, it = RPar o items -> block_result k h T i r.

    Lemma task_quiet_ext h h' pa : ext any F h h' -> quiet h T pa -> quiet h' T pa.
    Proof.
      intros He Hq x H1 H2 Hin. destruct (Hq x H1 H2) as (ok & Hok).
      - eapply ext_in; [exact He|exact Hin|]. exact H1.
      - exists ok. eapply suffix_elem; [eapply ext_suffix; exact He|exact Hok].
    Qed.
    Lemma task_failure_ext h h' pa r : ext any F h h' -> first_failure h T pa r -> first_failure h' T pa r.
    Proof.
      intros (q & -> & Hq) H. induction q as [|ev q IH]; [exact H|]. apply Forall_cons in Hq as [[Ht' _] Hq]. simpl.
      apply first_failure_cons; [|auto]. intros j e ->. apply Ht'. reflexivity.
    Qed.

    Lemma Qitem_ext env l i it r h h' : good h' -> ext any F h h' -> Qitem env l i it r h -> Qitem env l i it r h'.
    Proof.
      intros Hg He (h0 & HL & Hs & Hq & Hfs & Hr & Hb). pose proof (ext_suffix _ _ _ _ He) as Hsf. exists h0.
      split; [exact HL|]. split; [eapply since_ext; eassumption|]. split; [eapply task_quiet_ext; eassumption|].
      split; [intros pa j Hin; eapply suffix_elem; [exact Hsf|]; apply Hfs; eapply ext_in; [exact He|exact Hin|reflexivity]|]. split.
      - destruct r as [e|]; [eapply err_ok_mono; eassumption|]. destruct Hr as (H1 & H3). split; [|eapply item_ok_mono; eassumption].
        + unfold vars_ok in *. pose proof (lc_vars _ _ _ _ _ HL) as Hv. destruct (t_vars t); [|exact I]. destruct Hv as [(m & Hm) _].
          assert (Hm' : OAlloc T [] m l ∈ h) by (eapply suffix_elem; [eapply since_suffix; exact Hs|exact Hm]).
          erewrite (heap_base k tasks root h h' T m l (fun _ => False)); [eapply task_vars_mono; eassumption|exact Hg| |exact Hm'|auto].
          eapply since_ext; [apply since_refl|exact He].
      - intros o items Ho. destruct (Hb o items Ho) as [[H1 H2]|(H1 & H2 & H3)]; [left|right].
        + split; [eapply suffix_elem; eassumption|eapply task_failure_ext; eassumption].
        + split; [|split; [|exact H3]].
          * intros j Hin. apply (H1 j). eapply ext_in; [exact He|exact Hin|reflexivity].
          * intros Hin. apply H2. eapply ext_in; [exact He|exact Hin|reflexivity].
    Qed.

    (** Some item is for this platform. *)
    Definition fits : Prop := exists i it, t_run t !! i = Some it /\ matches_platform (item_platforms it) (k_os k) = true.
    Definition Qnext (env : gmap str str) (l i : nat) (r : outcome) (h : hist) : Prop :=
      match r with None => loc env l i false h /\ fits | Some e => err_ok h e end.
    Lemma Qnext_stable env l i e h1 h2 : h1 `suffix_of` h2 -> good h2 -> Qnext env l i (Some e) h1 -> Qnext env l i (Some e) h2.
    Proof. intros Hs _. apply err_ok_mono. exact Hs. Qed.

    Lemma task_err (Q : outcome -> hist -> Prop) h e : (forall h' , err_ok h' e -> Q (Some e) h') -> err_ok h e -> safe E Q O h (Ret (Some e)).
    Proof. intros HQ He. apply safe_ret. intros h' Hext Hg. apply HQ. eapply err_ok_mono; [eapply ext_suffix; exact Hext|exact He]. Qed.

    Lemma loc_runs env l i h it : loc env l i true h -> t_run t !! i = Some it -> chosen k h t i ->
      (exists c, OCheck T i c false ∈ h) -> runs h T [i] it.
    Proof.
      intros HL Hit Hch Hc. exists t. split; [exact Ht|]. split; [exact Hit|]. split; [apply (lc_deps _ _ _ _ _ HL)|].
      split; [apply (lc_earlier _ _ _ _ _ HL)|]. split; [exact Hch|exact Hc].
    Qed.

    Lemma loc_idle env l i h : loc env l i true h -> idle h T [i].
    Proof. intros HL ev Hin Hx. left. destruct (loc_here _ _ _ _ _ _ _ _ HL Hin Hx) as (_ & c & ->). eauto. Qed.

    Lemma loc_quiet env l i h : loc env l i true h -> quiet h T [i].
    Proof.
      intros HL x H1 H2 Hin. exfalso. destruct (loc_here _ _ _ _ _ _ false [] HL Hin) as (_ & c & H); [simpl; rewrite H1, H2; reflexivity|discriminate].
    Qed.

    Lemma item_end env l i it r h : Qitem env l i it r h -> safe E (Qitem env l i it) O h (Ret r).
    Proof. intros HQ. apply safe_ret. intros h' He Hg. apply (ext_protects _ _ _ _ _ prot) in He. eapply Qitem_ext; eassumption. Qed.

    Lemma item_err env l i it h e : loc env l i true h -> err_ok h e -> safe E (Qitem env l i it) O h (Ret (Some e)).
    Proof.
      intros HL He. apply item_end. exists h. split; [exact HL|]. split; [apply since_refl|]. split; [eapply loc_quiet; exact HL|].
      split; [apply (lc_slots _ _ _ _ _ HL)|]. split; [exact He|]. intros o items _. right. split; [|split; [|discriminate]].
      - intros j Hj. destruct (loc_here _ _ _ _ _ _ true [j] HL Hj eq_refl) as (_ & c & H). discriminate.
      - intros Hj. destruct (loc_here _ _ _ _ _ _ _ _ HL Hj eq_refl) as (_ & c & H). discriminate.
    Qed.

    (** A leaf as item of the task. *)
    Lemma safe_leaf_item env l i h it : loc env l i true h -> good h -> t_run t !! i = Some it -> runs h T [i] it ->
      (forall p, it <> RPrompt p) -> (forall o items, it <> RPar o items) ->
      safe E (Qitem env l i it) O h (execute_run_item k rt it t [i] l env a).
    Proof.
      intros HL Hg Hit Hru Hnp Hnb.
      assert (Hx : leaf_ctx t [i] E O F l env a (a_scope a) h it).
      { constructor.
        - apply prot.
        - apply HO. reflexivity.
        - reflexivity.
        - intros x Hx. rewrite Hx. apply (lc_known _ _ _ _ _ HL).
        - apply (lc_knownO _ _ _ _ _ HL).
        - exact Hru.
        - eapply loc_idle; exact HL.
        - intros d s' Hin. destruct (loc_here _ _ _ _ _ _ _ _ HL Hin eq_refl) as (_ & c & H). discriminate.
        - apply (lc_env _ _ _ _ _ HL).
        - exact Hargs.
        - exact Hreach.
        - apply (proj2 (lc_begun _ _ _ _ _ HL)).
        - reflexivity.
        - intros h' i' j' _ Hd. discriminate.
        - intros h' Hf Hg'. split.
          + intros Hin. destruct (since_in _ _ _ _ _ Hf Hin eq_refl) as [H|[]]. eapply loc_notdone; [exact HL|exact H].
          + unfold sees. pose proof (lc_vars _ _ _ _ _ HL) as Hv. destruct (t_vars t).
            * destruct Hv as [(m & Hm) Hv]. rewrite (heap_base k tasks root h h' T m l _ Hg' Hf Hm) by (intros ? ? ? []).
              eapply task_vars_mono; [eapply since_suffix; exact Hf|exact Hv].
            * rewrite Hv. exists h'. split; [reflexivity|reflexivity].
        - pose proof (lc_vars _ _ _ _ _ HL) as Hv. destruct (t_vars t); [right; destruct Hv as [(m & Hm) _]; eauto|left; auto].
        - discriminate. }
      eapply safe_conseq; [|apply (safe_run_item t Ht [i] E O F l env a (a_scope a) h it Hx fuel rt Hrt st (lc_stack _ _ _ _ _ HL) Hg); destruct it; try (intros []; fail); exfalso; [eapply Hnp; reflexivity|eapply Hnb; reflexivity]].
      intros r h' Hs Hg' (Hf & Hq & Hr).
      assert (Hf' : since F (here i) h h').
      { destruct Hf as (q & E1 & F1). exists q. split; [exact E1|]. eapply Forall_impl; [exact F1|]. intros ev H Htc. specialize (H Htc).
        destruct ev; simpl in H; try contradiction; destruct H as [E2 E3]; (split; [|split; discriminate]); eexists _, []; (split; [reflexivity|exact E3]). }
      assert (Hb : forall o items, it = RPar o items -> block_result k h' T i r) by (intros o items Ho; exfalso; eapply Hnb; exact Ho).
      assert (Hfs : forall pa j, OSlot T pa j ∈ h' -> OFree T pa j ∈ h').
      { intros pa j Hin. destruct (since_in _ _ _ _ _ Hf Hin) as [Hin'|[]]; [reflexivity|].
        eapply suffix_elem; [exact Hs|]. apply (lc_slots _ _ _ _ _ HL). exact Hin'. }
      destruct r as [e|]; exists h; (split; [exact HL|]); (split; [exact Hf'|]); (split; [exact Hq|]); (split; [exact Hfs|]); (split; [|exact Hb]); [exact Hr|].
      split.
      - eapply vars_next; [exact HL|exact Hf|exact Hg'|intros ? ? ? []|exact Hit|left; exact Hnp].
      - destruct it; try exact Hr; [exfalso; eapply Hnp; reflexivity|exfalso; eapply Hnb; reflexivity].
    Qed.

    Lemma in_item_do Q env l i h e kk :
      (forall r, tok (obs e r) = None \/ exists q, tok (obs e r) = Some (T, i :: q, false)) ->
      loc env l i true h ->
      (forall h' r, loc env l i true h' -> h `suffix_of` h' -> good h' -> allowed g h' (obs e r) -> body_ok k tasks root h' (obs e r)) ->
      (forall h' r, loc env l i true h' -> h `suffix_of` h' -> good h' -> allowed g h' (obs e r) -> good (obs e r :: h') ->
         safe E Q O (obs e r :: h') (kk r)) ->
      safe E Q O h (Vis e kk).
    Proof.
      intros Htok HL HB H. eapply safe_do; [apply prot|]. intros h' r He Hg Hk Ha.
      assert (HL' : loc env l i true h') by (eapply loc_ext; eassumption).
      pose proof (HB h' r HL' (ext_suffix _ _ _ _ He) Hg Ha) as A.
      assert (HG : G h' (obs e r)).
      { split; [|exact A]. intros x Hx. destruct (Htok r) as [E1|(q & E1)]; rewrite E1 in Hx; [discriminate|]. injection Hx as <-. simpl.
        eapply loc_active; [exact Hg|exact HL']. }
      split; [exact HG|]. split.
      - unfold permitted. destruct (Htok r) as [E1|(q & E1)]; rewrite E1; [exact I|]. apply HO. reflexivity.
      - apply H; try assumption; [apply (ext_suffix _ _ _ _ He)|]. constructor; assumption.
    Qed.
    Lemma loc_cons env l i chk h ev : good (ev :: h) -> tok ev = None -> loc env l i chk h -> loc env l i chk (ev :: h).
    Proof.
      intros Hg Htok. apply loc_ext; [exact Hg|]. apply ext_cons; [apply ext_refl| |exact I]. unfold touches. rewrite Htok. intros [].
    Qed.

    Lemma item_read Q env l i h kk : loc env l i true h ->
      (forall h' m, loc env l i true h' -> h `suffix_of` h' -> good h' -> sees k h' t [i] m -> safe E Q O h' (kk m)) ->
      safe E Q O h (Vis (ERead T [i] l) kk).
    Proof.
      intros HL H. eapply in_item_do; [left; reflexivity|exact HL| |].
      - simpl. intros h' m HL' Hs Hg Ha. exists t. split; [exact Ht|]. split; [intros _; rewrite Ha; eapply loc_sees; exact HL'|].
        pose proof (lc_vars _ _ _ _ _ HL') as Hv. destruct (t_vars t); [right; destruct Hv as [(m' & Hm) _]; eauto|left; auto].
      - simpl. intros h' m HL' Hs Hg Ha Hg2. apply H; [eapply loc_cons; [exact Hg2|reflexivity|exact HL']|apply suffix_cons_r; exact Hs|exact Hg2|].
        eapply sees_mono; [apply suffix_cons_self|]. rewrite Ha. eapply loc_sees; exact HL'.
    Qed.

    Lemma item_would env l i h it w : loc env l i true h -> dry = true -> t_run t !! i = Some it -> runs h T [i] it -> announced k h t [i] it w ->
      (forall h', (exists w, OWould T [i] w ∈ h') -> item_ok dry h' T i it) ->
      safe E (Qitem env l i it) O h (Vis (EWould T [i] w) (fun _ => Ret None)).
    Proof.
      intros HL Hd Hit Hru Hw Hok. eapply in_item_do; [right; exists []; reflexivity|exact HL| |]; simpl.
      - intros h' _ HL' Hs Hg _. split; [exact Hd|]. split; [eapply loc_idle; exact HL'|]. split; [discriminate|]. exists t, it. split; [exact Ht|]. split; [eapply runs_mono; eassumption|].
        eapply announced_mono; eassumption.
      - intros h' _ HL' Hs Hg _ Hg2. apply item_end. exists h'. split; [exact HL'|].
        assert (Hf : since F (fun ev => ev = OWould T [i] w) h' (OWould T [i] w :: h')) by (apply since_cons; [apply since_refl|auto]).
        split; [apply since_cons; [apply since_refl|]; intros _; split; [eexists _, []; split; reflexivity|split; discriminate]|].
        split; [|split; [|split; [split|]]].
        + intros x H1 H2 Hin. apply elem_of_cons in Hin as [H|Hin]; [discriminate|]. destruct (loc_quiet _ _ _ _ HL' x H1 H2 Hin) as (ok & Ho). exists ok. right. exact Ho.
        + intros pa j Hin. apply elem_of_cons in Hin as [H|Hin]; [discriminate|]. right. apply (lc_slots _ _ _ _ _ HL'). exact Hin.
        + eapply vars_next; [exact HL'|exact Hf|exact Hg2|discriminate|exact Hit|right; right; eexists; left].
        + apply Hok. eexists. left.
        + intros o items Ho. right. split; [|split; [|intros _; exact Hd]].
          * intros j Hj. apply elem_of_cons in Hj as [H|Hj]; [discriminate|].
            destruct (loc_here _ _ _ _ _ _ true [j] HL' Hj eq_refl) as (_ & c & H). discriminate.
          * intros Hj. apply elem_of_cons in Hj as [H|Hj]; [discriminate|].
            destruct (loc_here _ _ _ _ _ _ _ _ HL' Hj eq_refl) as (_ & c & H). discriminate.
    Qed.

    Lemma safe_prompt env l i h p : loc env l i true h -> good h -> t_run t !! i = Some (RPrompt p) -> runs h T [i] (RPrompt p) ->
      safe E (Qitem env l i (RPrompt p)) O h (execute_item k tasks rt (RPrompt p) t i l env a).
    Proof.
      intros HL Hg Hit Hru. simpl. apply (item_read _ env); [exact HL|]. intros h1 vars HL1 Hs1 Hg1 Hsee.
      assert (Hru1 : runs h1 T [i] (RPrompt p)) by (eapply runs_mono; eassumption).
      destruct (interpolate_prompt getenv vars p) as [q|e] eqn:Ei.
      2:{ apply item_err; [exact HL1|]. apply interpolate_prompt_err in Ei as (s & H1 & H2). exists T, t, [i], (RPrompt p), s, vars. auto 9. }
      destruct dry eqn:Edry.
      { eapply item_would; [exact HL1|exact Edry|exact Hit|exact Hru1| |]. { exists vars, q. split; [exact Hsee|]. split; [exact Ei|].
          unfold interpolate_prompt in Ei. repeat (match type of Ei with match ?x with _ => _ end = _ => destruct x; [|discriminate Ei] end). injection Ei as <-. auto. }
        intros h' Hin. simpl. rewrite Edry. exact Hin. }
      eapply in_item_do; [right; exists []; reflexivity|exact HL1| |]; simpl.
      - intros h' r HL' Hs Hg' _. split; [exact Edry|]. split; [eapply loc_idle; exact HL'|]. exists t, i, p, vars.
        split; [reflexivity|]. split; [exact Ht|]. split; [eapply runs_mono; eassumption|]. split; [eapply sees_mono; eassumption|exact Ei].
      - intros h' r HL' Hs Hg' _ Hg2. destruct r as [v|].
        2:{ apply item_end. exists h'. split; [exact HL'|].
            split; [apply since_cons; [apply since_refl|]; intros _; split; [eexists _, []; split; reflexivity|split; discriminate]|].
            split; [|split; [intros pa j Hin; apply elem_of_cons in Hin as [H|Hin]; [discriminate|]; right; apply (lc_slots _ _ _ _ _ HL'); exact Hin|split; [exists [i], q, p; split; [left|split; [|reflexivity]]|discriminate]]].
            2:{ eapply runs_mono; [|exact Hru1]. etransitivity; [exact Hs|apply suffix_cons_self]. }
            intros x H1 H2 Hin. apply elem_of_cons in Hin as [H|Hin]; [discriminate|].
            destruct (loc_quiet _ _ _ _ HL' x H1 H2 Hin) as (ok & Ho). exists ok. right. exact Ho. }
        eapply safe_do; [apply prot|]. simpl. intros h2 u He Hg3 Hk3 _.
        assert (Hpr : OPrompt T [i] q (Some v) ∈ h2) by (eapply suffix_elem; [eapply ext_suffix; exact He|left]).
        assert (Hs2 : h' `suffix_of` h2) by (etransitivity; [apply suffix_cons_self|eapply ext_suffix; exact He]).
        assert (HG : G h2 (OWrite T [i] l (p_prompt p) v)).
        { split.
          - intros x Hx. injection Hx as <-. simpl. apply (active_of k tasks root); [exact Hg3|eapply status_claimed; [exact Hs2|apply (lc_known _ _ _ _ _ HL')]|].
            intros Hin. apply (ext_in _ _ _ _ _ He) in Hin; [|reflexivity]. apply elem_of_cons in Hin as [Hd|Hin]; [discriminate|].
            eapply loc_notdone; [exact HL'|exact Hin].
          - exists t, i, p, q. split; [reflexivity|]. split; [exact Ht|].
            split; [eapply runs_mono; [|exact Hru1]; etransitivity; [exact Hs|exact Hs2]|]. split; [reflexivity|]. split; [exact Hpr|].
            split.
            { intros r Hin. apply (ext_in _ _ _ _ _ He) in Hin; [|reflexivity]. apply elem_of_cons in Hin as [Hd|Hin]; [discriminate|].
              destruct (loc_here _ _ _ _ _ _ _ _ HL' Hin eq_refl) as (_ & c & Hd). discriminate. }
            pose proof (lc_vars _ _ _ _ _ HL') as Hv. destruct (t_vars t); [|exact Hv]. destruct Hv as [(m & Hm) _]. exists m.
            eapply suffix_elem; eassumption. }
        split; [exact HG|]. split; [apply HO; reflexivity|].
        set (h3 := OWrite T [i] l (p_prompt p) v :: h2) in *.
        assert (Hg4 : good h3) by (constructor; [exact Hg3|exact I|exact HG]).
        assert (Hf : since F (here i) h' h3).
        { apply since_cons; [|intros _; split; [eexists _, []; split; reflexivity|split; discriminate]]. eapply since_ext; [|exact He].
          apply since_cons; [apply since_refl|intros _; split; [eexists _, []; split; reflexivity|split; discriminate]]. }
        assert (Hin3 : forall ev, ev ∈ h3 -> touches F ev -> ev ∈ h' \/ ev = OPrompt T [i] q (Some v) \/ ev = OWrite T [i] l (p_prompt p) v).
        { intros ev Hin Htc. apply elem_of_cons in Hin as [Hin|Hin]; [auto|]. apply (ext_in _ _ _ _ _ He Hin) in Htc.
          apply elem_of_cons in Htc as [H|H]; auto. }
        apply item_end. exists h'. split; [exact HL'|]. split; [exact Hf|]. split; [|split; [|split; [split|discriminate]]].
        + intros x H1 H2 Hin. destruct (Hin3 _ Hin H1) as [H|[H|H]]; try discriminate.
          destruct (loc_quiet _ _ _ _ HL' x H1 H2 H) as (ok & Ho). exists ok. eapply suffix_elem; [eapply since_suffix; exact Hf|exact Ho].
        + intros pa j Hin. destruct (Hin3 _ Hin eq_refl) as [H|[H|H]]; try discriminate.
          eapply suffix_elem; [eapply since_suffix; exact Hf|]. apply (lc_slots _ _ _ _ _ HL'). exact H.
        + unfold vars_ok. pose proof (lc_vars _ _ _ _ _ HL') as Hv. destruct (t_vars t); [|exact I]. destruct Hv as [(m & Hm) Hv].
          simpl. rewrite decide_True by reflexivity.
          rewrite (heap_base k tasks root h' h2 T m l (fun ev => ev = OPrompt T [i] q (Some v)) Hg3);
            [| |exact Hm|discriminate].
          2:{ eapply since_ext; [|exact He]. apply since_cons; [apply since_refl|auto]. }
          eapply tv_answer; [eapply task_vars_mono; [eapply since_suffix; exact Hf|exact Hv]|exact Hit|right; exact Hpr].
        + simpl. rewrite Edry. exists q, v. right. exact Hpr.
    Qed.

    (** *** Blocks *)
    Section Par.
      Context (env : gmap str str) (l i l' : nat) (o : par_opts) (items : list run_item) (h0 : hist) (vars : gmap str str).
      Context (HL : loc env l i true h0) (Hg0 : good h0) (Hit : t_run t !! i = Some (RPar o items)) (Hru : runs h0 T [i] (RPar o items))
              (Hsee : sees k h0 t [i] vars) (Hdry : dry = false).

      (** The copy is made, nothing else happened in the name of [T]. *)
      Record ready (h : hist) : Prop := {
        rd_since : since F (fun ev => ev = OAlloc T [i] vars l') h0 h;
        rd_good : good h;
        rd_alloc : OAlloc T [i] vars l' ∈ h;
        rd_known : known O h }.

      Lemma ready_ext h h' : ready h -> ext any F h h' -> good h' -> ready h'.
      Proof.
        intros [A B C D] He Hg. pose proof (ext_suffix _ _ _ _ He). constructor; [eapply since_ext; eassumption|exact Hg|eapply suffix_elem; eassumption|eapply known_suffix; eassumption].
      Qed.
      Lemma ready_suffix h : ready h -> h0 `suffix_of` h.
      Proof. intros H. eapply since_suffix. apply (rd_since _ H). Qed.
      Lemma ready_here h ev b q : ready h -> ev ∈ h -> tok ev = Some (T, i :: q, b) -> (exists c, ev = OCheck T i c false) \/ ev = OAlloc T [i] vars l'.
      Proof.
        intros Hr Hin Hx. destruct (since_in _ _ _ _ _ (rd_since _ Hr) Hin) as [H|H]; [unfold touches; rewrite Hx; reflexivity| |right; exact H].
        left. destruct (loc_here _ _ _ _ _ _ _ _ HL H Hx) as (_ & c & ->). eauto.
      Qed.
      Lemma ready_notdone h : ready h -> ODone T ∉ h.
      Proof.
        intros Hr Hin. destruct (since_in _ _ _ _ _ (rd_since _ Hr) Hin) as [H|H]; [reflexivity| |discriminate].
        eapply loc_notdone; [exact HL|exact H].
      Qed.
      Lemma ready_runs h : ready h -> runs h T [i] (RPar o items).
      Proof. intros Hr. eapply runs_mono; [apply ready_suffix; exact Hr|exact Hru]. Qed.

      Definition Qpre (r : outcome) (h : hist) : Prop := ready h /\ match r with None => pre_done tasks h items | Some e => err_ok h e end.
      Lemma pre_end h r : ready h -> match r with None => pre_done tasks h items | Some e => err_ok h e end -> safe E Qpre O h (Ret r).
      Proof.
        intros Hr He. apply safe_ret. intros h' Hex Hg. apply (ext_protects _ _ _ _ _ prot) in Hex.
        split; [eapply ready_ext; eassumption|]. destruct r; [eapply err_ok_mono|eapply pre_done_mono]; (eapply ext_suffix; exact Hex) || exact He.
      Qed.

      Definition pre_args (a' : args) : Prop := args_ok a' /\ a_scope a' = FPre T [i] :: FBlock T [i] o :: a_scope a.

      Definition all_done (seen : gset str) (h : hist) : Prop := forall d, d ∈ seen -> ODone d ∈ h.
      Lemma all_done_mono seen h h' : h `suffix_of` h' -> all_done seen h -> all_done seen h'.
      Proof. intros Hs H d Hd. eapply suffix_elem; [exact Hs|auto]. Qed.
      Lemma all_done_cons d seen h : ODone d ∈ h -> all_done seen h -> all_done ({[d]} ∪ seen) h.
      Proof. intros H1 H2 d' Hd. apply elem_of_union in Hd as [Hd|Hd]; [apply elem_of_singleton in Hd as ->; exact H1|auto]. Qed.

      Lemma safe_pre_deps r t' a' deps : pre_args a' -> RTask r ∈ items -> tasks !! r_task r = Some t' ->
        forall seen h kk, (forall d, d ∈ deps -> d ∈ t_deps t') -> ready h -> all_done seen h ->
        (forall h' seen', h `suffix_of` h' -> ready h' -> all_done seen' h' -> (forall d, d ∈ deps -> ODone d ∈ h') -> safe E Qpre O h' (kk seen')) ->
        safe E Qpre O h (pre_deps rt deps seen a' kk).
      Proof.
        intros [Ha Hsc] Hr Ht'. induction deps as [|d deps IH]; intros seen h kk Hd Hrd Hsn Hkk; simpl.
        { apply Hkk; [reflexivity|exact Hrd|exact Hsn|]. intros d H. inversion H. }
        assert (Hd' : forall d', d' ∈ deps -> d' ∈ t_deps t') by (intros d' H; apply Hd; right; exact H).
        assert (Hgo : forall h2, h `suffix_of` h2 -> ready h2 -> ODone d ∈ h2 -> forall seen', all_done seen' h2 -> safe E Qpre O h2 (pre_deps rt deps seen' a' kk)).
        { intros h2 Hs2 Hr2 Hdn seen' Hsn2. apply IH; [exact Hd'|exact Hr2|exact Hsn2|]. intros h3 seen3 Hs3 Hr3 Hsn3 Hall.
          apply Hkk; [etransitivity; eassumption|exact Hr3|exact Hsn3|]. intros d' Hin.
          apply elem_of_cons in Hin as [->|Hin]; [eapply suffix_elem; eassumption|apply Hall; exact Hin]. }
        destruct (decide (d ∈ seen)) as [Hin|_]; [apply Hgo; [reflexivity|exact Hrd|apply Hsn; exact Hin|exact Hsn]|].
        eapply safe_do; [apply prot|]. simpl. intros h1 s He Hg1 Hk1 Hal.
        assert (HG : G h1 (OGet d s)) by (split; [discriminate|exact I]).
        split; [exact HG|]. split; [exact I|].
        assert (Hg1' : good (OGet d s :: h1)) by (constructor; assumption).
        assert (Hr1 : ready (OGet d s :: h1)).
        { eapply ready_ext; [exact Hrd| |exact Hg1']. apply ext_cons; [exact He|intros []|exact I]. }
        assert (Hs1 : h `suffix_of` OGet d s :: h1) by (apply suffix_cons_r; eapply ext_suffix; exact He).
        assert (Hcall : safe E Qpre O (OGet d s :: h1) (and_then (rt d a') (RPreDep d) (pre_deps rt deps ({[d]} ∪ seen) a' kk))).
        { apply safe_and_then'.
          eapply safe_conseq; [|eapply (safe_call _ _ _ (Qtask d) O F); [apply prot| |exact (rd_known _ Hr1)|]].
          3:{ apply Hrt with st; [exact Ha| | |exact Hg1'|].
              - rewrite Hsc. eapply reached_pre; [exact Hreach|exact Ht|exact Hit|exact Hr|exact Ht'|apply Hd; left].
              - rewrite Hsc. simpl. split; [exact Hdry|]. exists o, items, r, t'. split; [apply ready_runs; exact Hr1|]. split; [exact Hr|]. split; [exact Ht'|]. split; [apply Hd; left|].
                exists (a_scope a). split; [|reflexivity]. eapply suffix_elem; [apply ready_suffix; exact Hr1|apply (proj2 (lc_begun _ _ _ _ _ HL))].
              - eapply stack_mono; [apply ready_suffix; exact Hr1|apply (lc_stack _ _ _ _ _ HL)]. }
          2:{ intros x Hx. apply (rd_known _ Hr1). apply HO. exact Hx. }
          intros res h2 Hs2 Hg2 [HQ He2]. destruct res as [e|]; [apply pre_end; [eapply ready_ext; eassumption|exact HQ]|].
          assert (Hs02 : h `suffix_of` h2) by (etransitivity; [exact Hs1|eapply ext_suffix; exact He2]).
          apply Hgo; [exact Hs02|eapply ready_ext; eassumption|exact HQ|].
          apply all_done_cons; [exact HQ|eapply all_done_mono; eassumption]. }
        destruct s; [exact Hcall|exact Hcall|].
        assert (Hdn : ODone d ∈ OGet d Done :: h1).
        { right. apply (done_iff k tasks root _ _ Hg1). symmetry. exact Hal. }
        apply Hgo; [exact Hs1|exact Hr1|exact Hdn|]. apply all_done_cons; [exact Hdn|eapply all_done_mono; eassumption].
      Qed.

      Lemma safe_pre_resolve a' its : pre_args a' -> forall seen h, (forall it, it ∈ its -> it ∈ items) ->
        (forall it, it ∈ items -> it ∈ its \/ pre_done tasks h [it]) -> ready h -> all_done seen h ->
        safe E Qpre O h (pre_resolve tasks rt its seen a').
      Proof.
        intros Ha. induction its as [|it its IH]; intros seen h Hin Hall Hrd Hsn.
        - simpl. apply pre_end; [exact Hrd|]. intros r t' d Hr Ht' Hd. destruct (Hall _ Hr) as [H|H]; [inversion H|].
          apply (H r t' d); [left|exact Ht'|exact Hd].
        - assert (Hin' : forall it', it' ∈ its -> it' ∈ items) by (intros it' H; apply Hin; right; exact H).
          assert (Hrest : forall h', h `suffix_of` h' -> pre_done tasks h' [it] -> forall it', it' ∈ items -> it' ∈ its \/ pre_done tasks h' [it']).
          { intros h' Hs Hp it' Hi. destruct (Hall _ Hi) as [H|H]; [|right; eapply pre_done_mono; eassumption].
            apply elem_of_cons in H as [->|H]; [right; exact Hp|left; exact H]. }
          destruct it as [c|r|lg|p|o' its']; simpl;
            try (apply IH; [exact Hin'|apply Hrest; [reflexivity|intros r' t' d Hr; apply elem_of_list_singleton in Hr; discriminate]|exact Hrd|exact Hsn]).
          destruct (tasks !! r_task r) as [t'|] eqn:Er.
          + eapply safe_pre_deps; [exact Ha|apply Hin; left|exact Er|auto|exact Hrd|exact Hsn|]. intros h' seen' Hs' Hr' Hsn' Hd'.
            apply IH; [exact Hin'| |exact Hr'|exact Hsn']. apply Hrest; [exact Hs'|]. intros r' t2 d Hri Ht2 Hd.
            apply elem_of_list_singleton in Hri. injection Hri as ->. rewrite Er in Ht2. injection Ht2 as <-. apply Hd'. exact Hd.
          + apply pre_end; [exact Hrd|]. split; [exact Er|]. exists T, (a_scope a), i, o, items, r.
            split; [exact Hreach|]. split; [apply ready_runs; exact Hrd|]. split; [apply Hin; left|reflexivity].
      Qed.

      (** The goroutines. *)
      Lemma child_known h j b : ready h -> known (owns_item T [i; j]) (b :: h).
      Proof.
        intros Hr x [Hx _]. rewrite Hx. eapply status_claimed; [|apply (lc_known _ _ _ _ _ HL)]. apply suffix_cons_r. apply ready_suffix. exact Hr.
      Qed.

      Lemma safe_fork_items cx sub h kk : (forall j, args_ok (sub j) /\ a_scope (sub j) = FBlock T [i] o :: a_scope a) -> 0 ∈ cx -> ready h -> pre_done tasks h items ->
        (forall log h, good h -> Qitem env l i (RPar o items) (first_err log) h -> safe E (Qitem env l i (RPar o items)) O h (kk log)) ->
        safe E (Qitem env l i (RPar o items)) O h (fork k rt o items t [i] l' env cx sub kk).
      Proof.
        intros Hsub Hc0 Hrd Hpre Hkk. unfold fork.
        set (ps := imap (fun j it => execute_run_item k rt it t ([i] ++ [j]) l' env (sub j)) items).
        assert (Eps : imap (fun j it => (Waiting, execute_run_item k rt it t ([i] ++ [j]) l' env (sub j))) items = map (pair Waiting) ps).
        { unfold ps. rewrite fmap_imap. reflexivity. }
        rewrite Eps. clear Eps.
        assert (Hps : forall j p, ps !! j = Some p -> exists it, items !! j = Some it /\ p = execute_run_item k rt it t ([i] ++ [j]) l' env (sub j)).
        { intros j p H. unfold ps in H. rewrite list_lookup_imap in H. destruct (items !! j) as [it|]; [|discriminate]. injection H as <-. eauto. }
        assert (Hlen : length ps = length items) by (unfold ps; apply imap_length).
        set (Qs := fun (j : nat) (r : outcome) (h : hist) => forall it, items !! j = Some it ->
                     match r with None => leaf_ok dry h T [i; j] it | Some e => err_ok h e end).
        set (Qn := fun (j : nat) (r : outcome) (h : hist) => quiet h T [i; j] /\ Qs j r h).
        assert (Hnone : forall ev j q b, ev ∈ h -> tok ev = Some (T, i :: j :: q, b) -> False).
        { intros ev j q b Hin Hx. destruct (ready_here _ _ _ _ Hrd Hin Hx) as [(c & ->)| ->]; discriminate. }
        assert (Hslots0 : slots T [i] h = 0) by (apply slots_none; intros j Hj; eapply Hnone; [exact Hj|reflexivity]).
        assert (Hret0 : returns T [i] h = []).
        { destruct (returns T [i] h) as [|[j r] rs] eqn:Er; [reflexivity|]. exfalso.
          assert (Hin : OReturn T [i] j r ∈ h) by (apply returns_in; rewrite Er; left). eapply Hnone; [exact Hin|reflexivity]. }
        assert (Hfree0 : frees T [i] h + 0 = frees T [i] h) by lia.
        assert (HF : forall h1 n, ext any (rest O T [i] n) h h1 -> ext any (rest F T [i] n) h h1).
        { intros h1 n. apply ext_within. intros x [H1 H2]. split; [apply HO; exact H1|exact H2]. }
        assert (Hrest : forall x, x = (T, [], false) \/ x = (T, [i], false) -> forall n, rest F T [i] n x).
        { intros x [-> | ->] n; (split; [reflexivity|]); intros j _ [_ [q Hq]]; discriminate. }
        assert (Hblk : forall h1 n log, block O T [i] n h h1 log -> good h1 ->
                  status_of h1 T = Active /\ idle h1 T [i] /\ runs h1 T [i] (RPar o items) /\ pre_done tasks h1 items).
        { intros h1 n log [Hb _] Hg1. apply HF in Hb. pose proof (ext_suffix _ _ _ _ Hb) as Hs1. split; [|split; [|split; [|eapply pre_done_mono; [exact Hs1|exact Hpre]]]].
          - apply (active_of k tasks root); [exact Hg1| |].
            + eapply status_claimed; [etransitivity; [apply ready_suffix; exact Hrd|exact Hs1]|apply (lc_known _ _ _ _ _ HL)].
            + intros Hin. apply (ready_notdone h Hrd). eapply ext_in; [exact Hb|exact Hin|]. apply Hrest. auto.
          - intros ev Hin Hx. destruct (ready_here h ev false [] Hrd) as [(c & ->)| ->].
            + eapply ext_in; [exact Hb|exact Hin|]. unfold touches. rewrite Hx. apply Hrest. auto.
            + exact Hx.
            + left. eauto.
            + right. right. eauto.
          - eapply runs_mono; [exact Hs1|]. apply ready_runs. exact Hrd. }
        apply (safe_fork g G E (Qitem env l i (RPar o items)) O h T [i] (Z.to_nat (q_limit o)) cx ps kk Qn Qs).
        - intros x [Hx _]. apply HO. exact Hx.
        - intros j r h1 [_ H]. exact H.
        - intros j r h1 h2 Hs _ HQ it Hj. specialize (HQ it Hj). destruct r; [eapply err_ok_mono|eapply leaf_ok_mono]; eassumption.
        - intros j p h1 Hp He Hg1. destruct (Hps j p Hp) as (it & Hj & ->). simpl ([i] ++ [j]) in *.
          assert (Hs1 : h `suffix_of` OSlot T [i] j :: h1) by (apply suffix_cons_r; eapply ext_suffix; exact He).
          assert (Hs01 : h0 `suffix_of` OSlot T [i] j :: h1) by (etransitivity; [apply ready_suffix; exact Hrd|exact Hs1]).
          assert (Hkn : known (owns_item T [i; j]) (OSlot T [i] j :: h1)).
          { intros x [Hx _]. rewrite Hx. eapply status_claimed; [exact Hs01|apply (lc_known _ _ _ _ _ HL)]. }
          assert (Hin1 : forall ev b q, ev ∈ OSlot T [i] j :: h1 -> tok ev = Some (T, i :: j :: q, b) -> ev = OSlot T [i] j).
          { intros ev b q Hin Hx. apply elem_of_cons in Hin as [->|Hin]; [reflexivity|]. exfalso. eapply Hnone; [|exact Hx].
            eapply ext_in; [exact He|exact Hin|]. unfold touches. rewrite Hx. split; [reflexivity|]. exists q. reflexivity. }
          assert (Hx : leaf_ctx t [i; j] (slot_kept T [i] j) (child T [i] j) (owns_item T [i; j]) l' env (sub j) (a_scope a) (OSlot T [i] j :: h1) it).
          { constructor.
            - intros ev Hk Hn Htch. unfold touches in *. unfold slot_kept in Hk. destruct (tok ev) as [x|] eqn:Ex; [|exact Htch].
              apply Hn. split; [exact Htch|]. intros ->. apply Hk. reflexivity.
            - split; [split; [reflexivity|reflexivity]|discriminate].
            - split; reflexivity.
            - exact Hkn.
            - intros x [Hx _]. apply Hkn. exact Hx.
            - assert (Hr1 : runs (OSlot T [i] j :: h1) T [i] (RPar o items)) by (eapply runs_mono; [exact Hs1|apply ready_runs; exact Hrd]).
              destruct Hr1 as (t0 & R1 & R2 & R3). exists t0. split; [exact R1|]. rewrite Ht in R1. injection R1 as <-.
              split; [exists o, items; auto|exact R3].
            - intros ev Hin Htk. rewrite (Hin1 _ _ _ Hin Htk) in Htk. discriminate.
            - intros d s' Hin. pose proof (Hin1 _ false [] Hin eq_refl). discriminate.
            - eapply task_env_mono; [exact Hs01|apply (lc_env _ _ _ _ _ HL)].
            - apply Hsub.
            - exact Hreach.
            - eapply suffix_elem; [exact Hs01|apply (proj2 (lc_begun _ _ _ _ _ HL))].
            - exists o, items. split; [exact Hit|]. apply Hsub.
            - intros h2 i' j' Hf H. injection H as <- <-. split; [eapply suffix_elem; [eapply since_suffix; exact Hf|left]|].
              intros r Hfr. destruct (since_in _ _ _ _ _ Hf Hfr) as [H|[]]; [split; [reflexivity|reflexivity]|].
              pose proof (Hin1 _ true [] H eq_refl) as Hd. discriminate.
            - intros h2 Hf Hg2. split.
              + intros Hin. assert (Hsl : OSlot T [i] j ∈ h2) by (eapply suffix_elem; [eapply since_suffix; exact Hf|left]).
                pose proof (slot_before_done k tasks root _ _ _ _ Hg2 Hsl Hin) as Hfr.
                destruct (since_in _ _ _ _ _ Hf Hfr) as [H|[]]; [split; [reflexivity|reflexivity]|].
                pose proof (Hin1 _ true [] H eq_refl) as Hd. discriminate.
              + rewrite (heap_clone k tasks root h2 T [i] vars l' Hg2); [|discriminate|].
                * change (sees k h2 t [i] vars). eapply sees_mono; [|exact Hsee]. etransitivity; [exact Hs01|eapply since_suffix; exact Hf].
                * eapply suffix_elem; [etransitivity; [exact Hs1|eapply since_suffix; exact Hf]|]. apply (rd_alloc _ Hrd).
            - right. exists [i], vars. eapply suffix_elem; [exact Hs1|apply (rd_alloc _ Hrd)].
            - discriminate. }
          eapply safe_conseq; [|apply (safe_run_item t Ht [i; j] _ _ _ l' env (sub j) (a_scope a) _ it Hx fuel rt Hrt st (stack_mono _ _ _ _ Hs01 (lc_stack _ _ _ _ _ HL)) Hg1); intros _; exists i, j; reflexivity].
          intros r h2 _ _ (_ & Hq & Hr). split; [exact Hq|]. intros it' Hj'. rewrite Hj in Hj'. injection Hj' as <-. exact Hr.
        - rewrite Hlen. intros h1 log j Hb Hg1 Hj. destruct (Hblk _ _ _ Hb Hg1) as (Hact & Hidl & Hrun & Hpd).
          destruct (lookup_lt_is_Some_2 items j Hj) as [it Hitj].
          assert (Hns : ext any (owns_item T ([i] ++ [j])) h h1 -> no_slot h1 T [i] j).
          { intros He ev Hin Hx. eapply Hnone; [|exact Hx]. eapply ext_in; [exact He|exact Hin|]. unfold touches. rewrite Hx. split; reflexivity. }
          assert (Hcur : forall x, Some (T, [i] ++ [j], true) = Some x -> status_of h1 x.1.1 = Active) by (intros x Hx; injection Hx as <-; exact Hact).
          split; [|split; [|split]].
          + intros He Hlim. split; [exact Hcur|]. split; [exact Hdry|]. split; [exact Hidl|]. split; [apply Hns; exact He|].
            exists i, o, items, it. split; [reflexivity|]. split; [exact Hrun|]. split; [exact Hitj|]. split; [intros Hpos; lia|exact Hpd].
          + intros He Hlim Hc. split; [exact Hcur|]. split; [exact Hc0|]. split; [exact Hidl|]. split; [apply Hns; exact He|].
            exists i, o, items, it. split; [reflexivity|]. split; [exact Hrun|]. split; [exact Hitj|lia].
          + intros r Hsl Hlog [Hq HQ]. split; [exact Hcur|]. split; [exact Hsl|]. split; [|split; [exact Hq|]].
            * intros r' Hin. apply Hlog. apply returns_in in Hin. rewrite (bl_log _ _ _ _ _ _ _ Hb), Hret0 in Hin. simpl in Hin.
              apply elem_of_list_fmap. exists (j, r'). auto.
            * exists i, o, items, it. split; [reflexivity|]. split; [exact Hrun|]. split; [exact Hitj|]. apply (HQ it Hitj).
          + intros Hlog Hfr. split; [exact Hcur|]. split; [|intros H; eapply Hnone; [exact (Hfr H)|reflexivity]].
            apply elem_of_list_fmap in Hlog as ([j' r] & -> & Hin). exists r. apply returns_in.
            rewrite (bl_log _ _ _ _ _ _ _ Hb), Hret0. exact Hin.
        - rewrite Hlen. intros h1 log Hg1 Hjn. pose proof (jn_block _ _ _ _ _ _ _ _ _ _ Hjn) as Hb.
          destruct (Hblk _ _ _ Hb Hg1) as (Hact & Hidl & Hrun & Hpd).
          assert (HG : G h1 (OJoin T [i])).
          { split; [intros x Hx; injection Hx as <-; exact Hact|]. split; [exact Hidl|]. exists i, o, items. split; [reflexivity|]. split; [exact Hrun|].
            intros j it Hj. assert (Hlt : j < length items) by (apply lookup_lt_is_Some; eauto).
            destruct (jn_all _ _ _ _ _ _ _ _ _ _ Hjn j Hlt) as [Hl|(_ & Hc & Hgu)].
            - left. apply elem_of_list_fmap in Hl as ([j' r] & -> & Hin). exists r. apply (jn_in _ _ _ _ _ _ _ _ _ _ Hjn) in Hin. apply Hin.
            - right. exists cx. split; [exact Hgu|]. apply cancelledb_spec. exact Hc. }
          split; [exact HG|]. set (h2 := OJoin T [i] :: h1) in *.
          assert (Hg2 : good h2) by (constructor; [exact Hg1|exact I|exact HG]).
          assert (Hs12 : h1 `suffix_of` h2) by apply suffix_cons_self.
          set (P := fun ev : event => ev = OAlloc T [i] vars l' \/ ev = OJoin T [i] \/ (exists x j q, tok ev = Some x /\ x.1.2 = i :: j :: q)).
          assert (Hf : since F P h0 h2).
          { apply since_cons; [|intros _; right; left; reflexivity].
            destruct (rd_since _ Hrd) as (q1 & E1 & F1). pose proof (bl_ext _ _ _ _ _ _ _ Hb) as Hbe. apply HF in Hbe.
            destruct Hbe as (q2 & E2 & F2). exists (q2 ++ q1). split; [rewrite E2, E1, app_assoc; reflexivity|]. apply Forall_app. split.
            - eapply Forall_impl; [exact F2|]. intros ev [Hn _] Htch. right; right. unfold touches in *. destruct (tok ev) as [[[T' p] b]|]; [|contradiction].
              assert (T' = T) as -> by exact Htch.
              destruct p as [|i' [|j q]]; simpl in *.
              + exfalso. apply Hn. split; [reflexivity|]. intros j _ [_ [q Hq]]. discriminate.
              + exfalso. apply Hn. split; [reflexivity|]. intros j _ [_ [q Hq]]. discriminate.
              + destruct (decide (i' = i)) as [->|Hne]; [eexists _, j, q; split; reflexivity|]. exfalso. apply Hn. split; [reflexivity|].
                intros j' _ [_ [q' Hq]]. simpl in Hq. congruence.
            - eapply Forall_impl; [exact F1|]. intros ev H Htch. left. apply H. exact Htch. }
          assert (Hf' := since_good _ _ _ _ Hf Hg2).
          apply Hkk; [exact Hg2|]. exists h0. split; [exact HL|]. split.
          { destruct Hf as (q & E1 & F1). exists q. split; [exact E1|]. eapply Forall_impl; [exact F1|]. intros ev H Htc.
            destruct (H Htc) as [->|[->|(x & j & q' & Hx & Hq)]].
            - split; [eexists _, []; split; reflexivity|split; discriminate].
            - split; [eexists _, []; split; reflexivity|split; discriminate].
            - split; [exists x, (j :: q'); auto|]. split; intros r ->; injection Hx as <-; discriminate. }
          split.
          { intros x H1 H2 Hin. exfalso. destruct (since_in _ _ _ _ _ Hf Hin) as [Hin'|HP]; [exact H1| |].
            - destruct (loc_quiet _ _ _ _ HL x H1 H2 Hin') as (ok & Ho). destruct (loc_here _ _ _ _ _ _ _ _ HL Ho eq_refl) as (_ & c & Hd). discriminate.
            - destruct HP as [HP|[HP|(x0 & j & q & Hx0 & Hq)]]; try discriminate. injection Hx0 as <-. simpl in Hq. rewrite H2 in Hq. discriminate. }
          split.
          { intros pa j Hin. destruct (since_in _ _ _ _ _ Hf' Hin) as [Hin'|HP]; [reflexivity| |].
            { eapply suffix_elem; [eapply since_suffix; exact Hf|]. apply (lc_slots _ _ _ _ _ HL). exact Hin'. }
            destruct HP as [HP (h3 & _ & HB)]. destruct HB as (_ & _ & _ & i' & o' & items' & it' & -> & Hr' & Hj' & _).
            assert (i' = i) as ->.
            { destruct HP as [HP|[HP|(x0 & j0 & q & Hx0 & Hq)]]; try discriminate. simpl in Hx0. injection Hx0 as <-. simpl in Hq. congruence. }
            destruct Hr' as (t' & R1 & R2 & _). rewrite Ht in R1. injection R1 as <-. simpl in R2. rewrite Hit in R2. injection R2 as <- <-.
            assert (Hlt : j < length items) by (apply lookup_lt_is_Some; eauto).
            destruct (jn_freed _ _ _ _ _ _ _ _ _ _ Hjn j Hlt) as [H|H]; [eapply suffix_elem; [exact Hs12|exact H]|].
            exfalso. eapply (slot_or_giveup k tasks root h2); [exact Hg2|exact Hin|eapply suffix_elem; [exact Hs12|exact H]]. }
          split.
          2:{ intros o0 items0 _. left. split; [left|]. unfold h2. apply first_failure_cons; [discriminate|].
              assert (Elog : log = returns T [i] h1) by (rewrite (bl_log _ _ _ _ _ _ _ Hb), Hret0; reflexivity).
              rewrite Elog. apply first_err_failure. }
          destruct (first_err log) as [e|] eqn:Efe.
          + destruct (first_err_some _ _ Efe) as (j & e' & -> & Hin). apply (jn_in _ _ _ _ _ _ _ _ _ _ Hjn) in Hin as (Hj & _ & HQ).
            destruct (lookup_lt_is_Some_2 items j Hj) as [it Hitj]. simpl. specialize (HQ it Hitj).
            change (err_ok h2 e'). eapply err_ok_mono; [exact Hs12|exact HQ].
          + split.
            * eapply vars_next; [exact HL|exact Hf'|exact Hg2| |exact Hit|left; discriminate].
              intros pa key v [HP (h3 & _ & HB)]. destruct HB as (t' & i' & p' & q' & -> & _).
              destruct HP as [HP|[HP|(x0 & j0 & q & Hx0 & Hq)]]; try discriminate. simpl in Hx0. injection Hx0 as <-. discriminate.
            * simpl. rewrite Hdry. split; [left|]. intros j it' Hj.
              assert (Hlt : j < length items) by (apply lookup_lt_is_Some; eauto).
              destruct (jn_all _ _ _ _ _ _ _ _ _ _ Hjn j Hlt) as [Hl|(Hlim & Hc & Hgu)].
              -- left. apply elem_of_list_fmap in Hl as ([j' r] & Ej & Hin). simpl in Ej. subst j'.
                 pose proof (first_err_none _ Efe _ _ Hin) as ->. apply (jn_in _ _ _ _ _ _ _ _ _ _ Hjn) in Hin as (_ & Hin & HQ).
                 split; [eapply suffix_elem; [exact Hs12|exact Hin]|]. rewrite <- Hdry. eapply leaf_ok_mono; [exact Hs12|]. apply (HQ it' Hj).
              -- right. exists cx. split; [eapply suffix_elem; [exact Hs12|exact Hgu]|]. split; [lia|].
                 eapply cancelled_mono; [exact Hs12|]. apply cancelledb_spec. exact Hc.
        - apply (rd_good _ Hrd).
        - apply (rd_known _ Hrd).
      Qed.

      Lemma ready_err h e : ready h -> err_ok h e -> safe E (Qitem env l i (RPar o items)) O h (Ret (Some e)).
      Proof.
        intros Hr He. apply item_end. exists h0. split; [exact HL|]. split.
        { destruct (rd_since _ Hr) as (q & E1 & F1). exists q. split; [exact E1|]. eapply Forall_impl; [exact F1|]. intros ev H Htc.
          rewrite (H Htc). split; [eexists _, []; split; reflexivity|split; discriminate]. }
        split; [|split; [|split; [exact He|]]].
        2:{ intros pa j Hin. destruct (since_in _ _ _ _ _ (rd_since _ Hr) Hin) as [H|H]; [reflexivity| |discriminate].
            eapply suffix_elem; [apply ready_suffix; exact Hr|]. apply (lc_slots _ _ _ _ _ HL). exact H. }
        - intros x H1 H2 Hin. exfalso. destruct (ready_here h _ false [] Hr Hin) as [(c & H)|H]; [simpl; rewrite H1, H2; reflexivity|discriminate|discriminate].
        - intros o' items' _. right. split; [|split; [|discriminate]].
          + intros j Hj. destruct (ready_here h _ true [j] Hr Hj eq_refl) as [(c & H)|H]; discriminate.
          + intros Hj. destruct (ready_here h _ false [] Hr Hj eq_refl) as [(c & H)|H]; discriminate.
      Qed.

      Lemma safe_parallel h : ready h -> safe E (Qitem env l i (RPar o items)) O h (execute_parallel k tasks rt o items t [i] l' env a).
      Proof.
        intros Hrd. unfold execute_parallel. pose proof Hargs as [A1 A2 A3 A4 A5].
        assert (Esil : match q_silent o with None => a_silent a | s => s end = first_set (q_silent o) (override_silent (a_scope a))).
        { rewrite A1. destruct (q_silent o); reflexivity. }
        assert (Eout : match q_output o with None => a_output a | s => s end = first_set (q_output o) (override_output (a_scope a))).
        { rewrite A2. destruct (q_output o); reflexivity. }
        assert (Ecol : a_nocolor a || negb (default true (q_color o)) = bool_decide (q_color o = Some false) || no_color (a_scope a)).
        { rewrite A4, orb_comm. f_equal. destruct (q_color o) as [[|]|]; reflexivity. }
        apply safe_and_then'.
        eapply safe_conseq; [|apply safe_pre_resolve; [|auto|auto|exact Hrd|intros d Hd; apply not_elem_of_empty in Hd; contradiction]].
        2:{ split; [|reflexivity]. constructor; simpl; [exact Esil|exact Eout|exact A3|exact Ecol|exact A5]. }
        intros r h1 Hs1 Hg1 [HQ He]. destruct r as [e|]; [apply ready_err; [exact HQ|exact He]|]. rewrite Hdry.
        assert (Hargs' : forall w out tui c, 0 ∈ c -> args_ok (Args false (match q_silent o with None => a_silent a | s => s end)
                   (match q_output o with None => a_output a | s => s end) (w :: out) (a_nocolor a || negb (default true (q_color o))) tui c
                   (with_scope a (FBlock T [i] o)))).
        { intros w out tui c Hc. constructor; simpl; [exact Esil|exact Eout|reflexivity|exact Ecol|exact Hc]. }
        destruct (is_tui_mode (q_mode o) && k_terminal k && (negb (a_piped a) || a_in_tui a)).
        - unfold execute_tui. simpl.
          match goal with |- context [fork _ _ _ _ _ _ _ _ _ _ ?f] => assert (Hfin : forall log h, good h -> Qitem env l i (RPar o items) (first_err log) h ->
            safe E (Qitem env l i (RPar o items)) O h (f log)) end.
          { intros log h2 Hg2 HQ2. destruct (is_silent _); [apply item_end; exact HQ2|].
            eapply safe_do; [apply prot|]. simpl. intros h3 u He3 Hg3 Hk3 Hal3.
            split; [split; [discriminate|exact I]|]. split; [exact I|]. apply item_end.
            eapply Qitem_ext; [constructor; [exact Hg3|exact I|split; [discriminate|exact I]]| |exact HQ2].
            apply ext_cons; [exact He3|intros []|exact I]. }
          destruct (a_tui a).
          + apply safe_fork_items; [intros j; split; [apply Hargs'; exact A5|reflexivity]|exact A5|exact HQ|exact He|exact Hfin].
          + eapply safe_do; [apply prot|]. simpl. intros h2 c He2 Hg2 Hk2 Hal2.
            split; [split; [discriminate|exact I]|]. split; [exact I|].
            eapply safe_do; [apply prot|]. simpl. intros h3 b He3 Hg3 Hk3 Hal3.
            split; [split; [discriminate|exact I]|]. split; [exact I|].
            assert (HQ' : ready (OTui b :: h3)).
            { eapply ready_ext; [exact HQ| |constructor; [exact Hg3|exact I|split; [discriminate|exact I]]].
              apply ext_cons; [|intros []|exact I]. eapply ext_trans; [|exact He3]. apply ext_cons; [exact He2|intros []|exact I]. }
            assert (Hpre3 : pre_done tasks (OTui b :: h3) items).
            { eapply pre_done_mono; [|exact He]. apply suffix_cons_r. etransitivity; [|eapply ext_suffix; exact He3].
              apply suffix_cons_r. eapply ext_suffix. exact He2. }
            destruct b; [apply safe_fork_items; [intros j; split; [apply Hargs'; right; exact A5|reflexivity]|right; exact A5|exact HQ'|exact Hpre3|exact Hfin]|].
            apply ready_err; [exact HQ'|left].
        - unfold execute_interleaved. apply safe_fork_items; [intros j; split; [apply Hargs'; exact A5|reflexivity]|exact A5|exact HQ|exact He|].
          intros log h2 Hg2 HQ2. apply item_end. exact HQ2.
      Qed.
    End Par.

    Lemma safe_item env l i h it : loc env l i true h -> good h -> t_run t !! i = Some it -> runs h T [i] it ->
      safe E (Qitem env l i it) O h (execute_item k tasks rt it t i l env a).
    Proof.
      intros HL Hg Hit Hru. destruct it as [c|r|lg|p|o items].
      1-3: apply safe_leaf_item; try assumption; discriminate.
      - apply safe_prompt; assumption.
      - simpl. destruct dry eqn:Edry.
        { eapply item_would; [exact HL|exact Edry|exact Hit|exact Hru|split; reflexivity|]. intros h' Hin. simpl. rewrite Edry. exact Hin. }
        apply (item_read _ env); [exact HL|]. intros h1 vars HL1 Hs1 Hg1 Hsee.
        eapply in_item_do; [right; exists []; reflexivity|exact HL1| |]; simpl.
        + intros h2 l' HL2 Hs2 Hg2 Ha. split.
          2:{ intros _. split; [eapply loc_idle; exact HL2|]. exists i, (RPar o items). split; [reflexivity|]. eapply runs_mono; [|exact Hru]. etransitivity; eassumption. }
          intros m' l'' Hin. destruct (loc_here _ _ _ _ _ _ _ _ HL2 Hin eq_refl) as (_ & c & Hd). discriminate.
        + intros h2 l' HL2 Hs2 Hg2 Ha Hg3.
          eapply (safe_parallel env l i l' o items h2 vars); try assumption.
          * eapply runs_mono; [|exact Hru]. etransitivity; eassumption.
          * eapply sees_mono; [exact Hs2|exact Hsee].
          * constructor; [apply since_cons; [apply since_refl|reflexivity]|exact Hg3|left|].
            eapply known_suffix; [apply suffix_cons_self|apply (lc_knownO _ _ _ _ _ HL2)].
    Qed.

    Lemma item_skip Q env l i h it w kk : loc env l i true h -> t_run t !! i = Some it -> (exists c, OCheck T i c false ∈ h) ->
      (forall h', h `suffix_of` h' ->
        match w with
        | ByPlatform => matches_platform (item_platforms it) (k_os k) = false
        | ByWhen => item_when it <> [] /\ exists vars, sees k h' t [i] vars /\ evaluate getenv vars (item_when it) = Ok false
        end) ->
      (forall h', loc env l (S i) false h' -> good h' -> h `suffix_of` h' -> OSkip T [i] w ∈ h' -> safe E Q O h' kk) ->
      safe E Q O h (Vis (ESkip T [i] w) (fun _ => kk)).
    Proof.
      intros HL Hit Hck Hw Hkk. eapply in_item_do; [right; exists []; reflexivity|exact HL| |]; simpl.
      - intros h' _ HL' Hs Hg _. exists t, i, it. split; [reflexivity|]. split; [exact Ht|]. split; [exact Hit|].
        split; [apply (lc_deps _ _ _ _ _ HL')|]. split; [apply (lc_earlier _ _ _ _ _ HL')|]. split; [destruct Hck as (c & Hc); exists c; eapply suffix_elem; [exact Hs|exact Hc]|]. split; [|apply Hw; exact Hs].
        intros ev x Hin Hx HT x' Hx' Hh. rewrite Hx in Hx'. injection Hx' as <-. destruct x as [[T' p] b]. simpl in *. subst T'.
        destruct p as [|i' q]; [discriminate|]. simpl in Hh. injection Hh as ->.
        destruct (loc_here _ _ _ _ _ _ _ _ HL' Hin Hx) as (_ & c & ->). eauto.
      - intros h' _ HL' Hs Hg _ Hg2. apply Hkk; [|exact Hg2|apply suffix_cons_r; exact Hs|left].
        assert (Hf : since F (fun ev => ev = OSkip T [i] w) h' (OSkip T [i] w :: h')) by (apply since_cons; [apply since_refl|auto]).
        assert (Hin : OSkip T [i] w ∈ OSkip T [i] w :: h') by left.
        eapply loc_next; [exact HL'|exact Hf|exact Hg2| | |exact Hit|right; eauto|].
        + intros ev -> x Hx. injection Hx as <-. eexists; reflexivity.
        + discriminate.
        + eapply vars_next; [exact HL'|exact Hf|exact Hg2|discriminate|exact Hit|right; left; eauto].
    Qed.

    Lemma safe_items env l items : t_run t <> [] -> forall i executed skipped h,
      items = drop i (t_run t) -> i + length items = length (t_run t) -> loc env l i false h -> good h ->
      (executed = 0 -> skipped = 0 -> forall i' it', i' < i -> t_run t !! i' = Some it' -> OSkip T [i'] ByPlatform ∈ h) ->
      (executed <> 0 \/ skipped <> 0 -> fits) ->
      safe E (Qnext env l (length (t_run t))) O h (execute_items k tasks rt items t i executed skipped l env a).
    Proof.
      intros Hne. induction items as [|it items IH]; intros i executed skipped h Hdrop Hlen HL Hg Hnone Hsome.
      - simpl. assert (Hok : fits -> safe E (Qnext env l (length (t_run t))) O h (Ret None)).
        { intros Hfit. apply safe_ret. intros h' He Hg'. apply (ext_protects _ _ _ _ _ prot) in He. simpl.
          simpl in Hlen. rewrite Nat.add_0_r in Hlen. rewrite <- Hlen. split; [eapply loc_ext; eassumption|exact Hfit]. }
        destruct executed; [destruct skipped|]; [|apply Hok, Hsome; right; discriminate|apply Hok, Hsome; left; discriminate].
        apply task_err; [auto|]. exists t. split; [exact Ht|].
        split; [split; [exists (a_scope a); apply (lc_begun _ _ _ _ _ HL)|split; [apply (lc_begun _ _ _ _ _ HL)|split; [apply (lc_deps _ _ _ _ _ HL)|exact Hne]]]|]. intros i' it' Hi'. apply Hnone with it'; [reflexivity|reflexivity| |exact Hi'].
        assert (i' < length (t_run t)) by (apply lookup_lt_is_Some; eauto). simpl in Hlen. lia.
      - assert (Hit : t_run t !! i = Some it).
        { rewrite <- (Nat.add_0_r i), <- lookup_drop, <- Hdrop. reflexivity. }
        assert (Hdrop' : items = drop (S i) (t_run t)).
        { replace (S i) with (i + 1) by lia. rewrite <- drop_drop, <- Hdrop. reflexivity. }
        assert (Hlen' : S i + length items = length (t_run t)) by (simpl in Hlen; lia).
        simpl execute_items. eapply safe_do; [apply prot|]. simpl. intros h1 b He Hg1 Hk1 Ha.
        assert (HL1 : loc env l i false h1) by (eapply loc_ext; eassumption).
        assert (HG : G h1 (OCheck T i (a_ctx a) b)).
        { split; [intros x Hx; injection Hx as <-; eapply loc_active; eassumption|]. split; [apply (ao_ctx a Hargs)|].
          exists t. split; [exact Ht|]. split; [apply (lc_deps _ _ _ _ _ HL1)|]. split; [apply (lc_earlier _ _ _ _ _ HL1)|].
          split; [intros c' b' Hin; destruct (loc_here _ _ _ _ _ _ _ _ HL1 Hin eq_refl) as [H _]; discriminate|]. split; [apply (proj1 (lc_begun _ _ _ _ _ HL1))|].
          split; [|exists env; apply (lc_env _ _ _ _ _ HL1)]. intros Hin. destruct (lc_events _ _ _ _ _ HL1 _ _ Hin eq_refl eq_refl) as [(b' & d' & H)|[(m & l1 & H)|[(x & i' & q & H1 & H2 & _)|(_ & c & H)]]]; try discriminate.
          injection H1 as <-. discriminate. }
        split; [exact HG|]. split; [apply HO; reflexivity|].
        assert (Hg2 : good (OCheck T i (a_ctx a) b :: h1)) by (constructor; assumption).
        destruct b; [apply task_err; [auto|]; exists T, i, (a_ctx a); left|].
        assert (HL2 : loc env l i true (OCheck T i (a_ctx a) false :: h1)).
        { destruct HL1 as [A1 A1' A2 A3 A4 A5 A6 A7 A8 A9]. pose proof (suffix_cons_self (OCheck T i (a_ctx a) false) h1) as Hs. constructor.
          - eapply status_claimed; eassumption.
          - eapply known_suffix; eassumption.
          - intros ev x Hin Hx HT. apply elem_of_cons in Hin as [->|Hin]; [right; right; right; split; [reflexivity|eauto]|].
            destruct (A2 ev x Hin Hx HT) as [H|[H|[H|[H _]]]]; [left; exact H|right; left; exact H|right; right; left; exact H|discriminate].
          - intros pa j Hin. apply elem_of_cons in Hin as [H|Hin]; [discriminate|]. right. auto.
          - eapply deps_done_mono; eassumption.
          - eapply earlier_mono; eassumption.
          - eapply task_env_mono; eassumption.
          - destruct (t_vars t); [|exact A7]. destruct A7 as [(m & Hm) A7]. split; [exists m; right; exact Hm|]. simpl. eapply task_vars_mono; eassumption.
          - eapply stack_mono; eassumption.
          - eapply begun_mono; eassumption. }
        assert (Hck : exists c, OCheck T i c false ∈ OCheck T i (a_ctx a) false :: h1) by (exists (a_ctx a); left).
        set (h2 := OCheck T i (a_ctx a) false :: h1) in *.
        assert (Hnone2 : executed = 0 -> skipped = 0 -> forall i' it', i' < i -> t_run t !! i' = Some it' -> OSkip T [i'] ByPlatform ∈ h2).
        { intros H1 H2 i' it' H3 H4. unfold h2. right. eapply suffix_elem; [eapply ext_suffix; exact He|]. eapply Hnone; eassumption. }
        clearbody h2. clear dependent h1. clear HL Hg Hnone h.
        destruct (matches_platform (item_platforms it) (k_os k)) eqn:Epl; simpl.
        2:{ eapply item_skip; [exact HL2|exact Hit|exact Hck|intros; exact Epl|]. intros h' HL' Hg' Hs' Hsk. apply IH; try assumption.
            intros H1 H2 i' it' H3 H4. destruct (decide (i' = i)) as [->|Hii]; [exact Hsk|]. eapply suffix_elem; [exact Hs'|]. eapply Hnone2; [exact H1|exact H2| |exact H4]. lia. }
        assert (Hgo : forall h, loc env l i true h -> good h -> h2 `suffix_of` h ->
                  (item_when it = [] \/ exists vars, sees k h t [i] vars /\ evaluate getenv vars (item_when it) = Ok true) ->
                  safe E (Qnext env l (length (t_run t))) O h
                    (bind (execute_item k tasks rt it t i l env a) (fun r => Vis (ERet (t_name t) [i] r)
                       (fun _ => match r with Some e => Ret (Some e) | None => execute_items k tasks rt items t (S i) (S executed) skipped l env a end)))).
        { intros h HL Hg Hs Hwh. apply safe_bind.
          assert (Hruns : runs h T [i] it).
          { apply loc_runs with env l; [exact HL|exact Hit| |].
            + intros it' Hit'. rewrite Hit in Hit'. injection Hit' as <-. split; [exact Epl|exact Hwh].
            + destruct Hck as (c & Hc). exists c. eapply suffix_elem; [exact Hs|exact Hc]. }
          eapply safe_conseq; [|apply (safe_item env l i h it HL Hg Hit Hruns)].
          intros r h' Hs' Hg' HQ. eapply safe_do; [apply prot|]. simpl. intros h1 _ He1 Hg1 Hk1 _.
          pose proof (Qitem_ext _ _ _ _ _ _ _ Hg1 He1 HQ) as (h0 & HL0 & Hsi & Hq & Hfs & Hr & Hb).
          pose proof (since_suffix _ _ _ _ Hsi) as Hs01.
          assert (Hno : forall r', ORet T [i] r' ∉ h1).
          { intros r' Hin. destruct (since_in _ _ _ _ _ Hsi Hin) as [H|[_ [H _]]]; [reflexivity| |eapply H; reflexivity].
            destruct (loc_here _ _ _ _ _ _ _ _ HL0 H eq_refl) as (_ & c & Hd). discriminate. }
          assert (Hnk : forall w, OSkip T [i] w ∉ h1).
          { intros w Hin. destruct (since_in _ _ _ _ _ Hsi Hin) as [H|[_ [_ H]]]; [reflexivity| |eapply H; reflexivity].
            destruct (loc_here _ _ _ _ _ _ _ _ HL0 H eq_refl) as (_ & c & Hd). discriminate. }
          assert (Hact : status_of h1 T = Active).
          { apply (active_of k tasks root); [exact Hg1|eapply status_claimed; [exact Hs01|apply (lc_known _ _ _ _ _ HL0)]|].
            intros Hin. destruct (since_in _ _ _ _ _ Hsi Hin) as [H|[(x & q & Hx & Hq') _]]; [reflexivity|eapply loc_notdone; [exact HL0|exact H]|].
            injection Hx as <-. discriminate. }
          assert (HG : G h1 (ORet T [i] r)).
          { split; [intros x Hx; injection Hx as <-; exact Hact|]. split; [exact Hno|]. split; [exact Hnk|]. split; [intros j; apply Hfs|]. split; [exact Hq|].
            exists t, i, it. split; [reflexivity|]. split; [exact Ht|].
            split; [eapply runs_mono; [|exact Hruns]; etransitivity; [exact Hs'|eapply ext_suffix; exact He1]|]. split; [|exact Hb].
            destruct r; [exact Hr|apply Hr]. }
          assert (Hg3 : good (ORet T [i] r :: h1)) by (constructor; [exact Hg1|exact I|exact HG]).
          split; [exact HG|]. split; [apply HO; reflexivity|]. destruct r as [e|].
          - apply task_err; [auto|]. eapply err_ok_mono; [apply suffix_cons_self|exact Hr].
          - apply IH; [exact Hdrop'|exact Hlen'| |exact Hg3|discriminate|intros _; exists i, it; split; [exact Hit|exact Epl]]. destruct Hr as (Hr1 & Hr3).
            assert (Hsi' : since F (fun ev => exists x q, tok ev = Some x /\ x.1.2 = i :: q) h0 (ORet T [i] None :: h1)).
            { apply since_cons; [|intros _; eexists _, []; split; reflexivity].
              destruct Hsi as (q & E1 & F1). exists q. split; [exact E1|]. eapply Forall_impl; [exact F1|]. intros ev H Htc. apply H. exact Htc. }
            eapply loc_next; [exact HL0|exact Hsi'|exact Hg3| | |exact Hit| |].
            + intros ev (x0 & q & Hx0 & Hq0) x Hx. rewrite Hx in Hx0. injection Hx0 as <-. eauto.
            + intros pa j _ Hin. apply elem_of_cons in Hin as [H|Hin]; [discriminate|]. right. auto.
            + left. split; [eapply item_ok_mono; [apply suffix_cons_self|exact Hr3]|left].
            + unfold vars_ok in Hr1. destruct (t_vars t); [|exact I]. simpl. eapply task_vars_mono; [apply suffix_cons_self|exact Hr1]. }
        destruct (item_when it) as [|wb w] eqn:Ew; [apply Hgo; [exact HL2|exact Hg2|reflexivity|left; reflexivity]|].
        apply (item_read _ env); [exact HL2|]. intros h3 vars HL3 Hs3 Hg3 Hsee.
        destruct (evaluate getenv vars (wb :: w)) as [[|]|e] eqn:Eev.
        + apply Hgo; [exact HL3|exact Hg3|exact Hs3|right; eauto].
        + eapply item_skip; [exact HL3|exact Hit|destruct Hck as (c & Hc); exists c; eapply suffix_elem; [exact Hs3|exact Hc]| |].
          * intros h' Hs'. rewrite Ew. split; [discriminate|]. exists vars. split; [eapply sees_mono; eassumption|exact Eev].
          * intros h' HL' Hg' _ _. apply IH; try assumption; [discriminate|]. intros _. exists i, it. split; [exact Hit|exact Epl].
        + apply task_err; [auto|]. exists t, it, vars. split; [exact Ht|]. split; [exact Hit|]. split; [reflexivity|].
          split; [destruct Hck as (c & Hc); exists c; eapply suffix_elem; [exact Hs3|exact Hc]|]. split; [exact Epl|]. split; [exact Hsee|rewrite Ew; exact Eev].
    Qed.

    (** Before the loop. *)
    Record fresh (h : hist) : Prop := {
      fs_known : known O h;
      fs_events : owned_events T h (fun ev => exists b d, ev = OHeader T b d);
      fs_stack : stack fuel st h;
      fs_begun : begun h }.
    Lemma fresh_ext h h' : ext any F h h' -> fresh h -> fresh h'.
    Proof.
      intros He [A1 A2 A3 A4]. pose proof (ext_suffix _ _ _ _ He) as Hs. constructor; [eapply known_suffix; eassumption| |eapply stack_mono; eassumption|eapply begun_mono; eassumption].
      intros ev x Hin Hx HT. eapply A2; [eapply ext_in; [exact He|exact Hin|eapply touches_F; eassumption]|exact Hx|exact HT].
    Qed.
    Lemma fresh_notdone h : fresh h -> ODone T ∉ h.
    Proof. intros Hf Hin. destruct (fs_events _ Hf _ _ Hin eq_refl eq_refl) as (b & d & H). discriminate. Qed.
    Lemma fresh_claimed h : fresh h -> status_of h T <> Fresh.
    Proof. intros Hf. apply (fs_known _ Hf (T, [], false)). apply HO. reflexivity. Qed.
    Lemma fresh_active h : good h -> fresh h -> status_of h T = Active.
    Proof. intros Hg Hf. eapply active_of; [exact Hg|apply fresh_claimed; exact Hf|apply fresh_notdone; exact Hf]. Qed.

    Lemma entered_begun h h' : h `suffix_of` h' -> begun h -> deps_done h t -> t_run t <> [] -> entered k h' T t.
    Proof.
      intros Hs [H1 H2] Hd Hne. eapply entered_mono; [exact Hs|]. split; [exists (a_scope a); exact H2|]. auto.
    Qed.
    Lemma entered_fresh h h' : h `suffix_of` h' -> fresh h -> deps_done h t -> t_run t <> [] -> entered k h' T t.
    Proof. intros Hs Hf. apply entered_begun; [exact Hs|apply (fs_begun _ Hf)]. Qed.

    Definition Qexec (r : outcome) (h : hist) : Prop :=
      match r with None => (exists env l, loc env l (length (t_run t)) false h) /\ fits | Some e => err_ok h e end.

    Lemma free_do Q h e kk : (forall r, tok (obs e r) = None) ->
      (forall h' r, ext any F h h' -> good h' -> allowed g h' (obs e r) -> body_ok k tasks root h' (obs e r)) ->
      (forall h' r, ext any F h h' -> good h' -> allowed g h' (obs e r) -> good (obs e r :: h') -> ext any F h (obs e r :: h') ->
         safe E Q O (obs e r :: h') (kk r)) ->
      safe E Q O h (Vis e kk).
    Proof.
      intros Htok HB H. eapply safe_do; [apply prot|]. intros h' r He Hg Hk Ha.
      assert (HG : G h' (obs e r)) by (split; [rewrite Htok; discriminate|auto]).
      split; [exact HG|]. split; [unfold permitted; rewrite Htok; exact I|]. apply H; try assumption; [constructor; assumption|].
      apply ext_cons; [exact He|unfold touches; rewrite Htok; intros []|exact I].
    Qed.

    Lemma safe_loop l vars h : fresh h \/ (exists m h1, fresh h1 /\ since F (fun ev => ev = OAlloc T [] m l) h1 h /\ known O h) -> good h ->
      deps_done h t -> t_run t <> [] ->
      match t_vars t with None => l = 0 /\ globals_once k h vars | Some _ => (exists m, OAlloc T [] m l ∈ h) /\ heap_of g h l = vars /\ task_vars k h t 0 vars end ->
      safe E Qexec O h
        (interpolate_env_then k (t_line t) vars (smap_get (merge_maps (k_env k) (t_env t))) (fun env => execute_items k tasks rt (t_run t) t 0 0 0 l env a)).
    Proof.
      intros Hfr Hg Hdeps Hne Hv.
      assert (Hmk : forall env h', ext any F h h' -> good h' -> interp_env k vars (smap_get (merge_maps (k_env k) (t_env t))) env ->
                safe E Qexec O h' (execute_items k tasks rt (t_run t) t 0 0 0 l env a)).
      { intros env h' He Hg' Henv. eapply safe_conseq; [|apply (safe_items env l (t_run t) Hne 0 0 0 h' eq_refl eq_refl)].
        { intros r h2 _ _ HQ. destruct r; [exact HQ|]. simpl in *. destruct HQ. eauto. }
        2:{ exact Hg'. }
        2:{ intros _ _ i' it' H. lia. }
        2:{ intros [H|H]; congruence. }
        apply (loc_ext env l 0 false h h'); [exact Hg'|exact He|].
        assert (Hev : owned_events T h (fun ev => (exists b d, ev = OHeader T b d) \/ exists m, ev = OAlloc T [] m l)).
        { destruct Hfr as [Hf|(m & h1 & Hf & Hsi & _)]; intros ev x Hin Hx HT.
          - left. apply (fs_events _ Hf ev x Hin Hx HT).
          - destruct (since_in _ _ _ _ _ Hsi Hin (touches_F _ _ Hx HT)) as [Hin'| ->]; [left; apply (fs_events _ Hf ev x Hin' Hx HT)|right; eauto]. }
        assert (Hkn : known O h) by (destruct Hfr as [Hf|(m & h1 & _ & _ & H)]; [apply (fs_known _ Hf)|exact H]).
        constructor.
        - apply (Hkn (T, [], false)). apply HO. reflexivity.
        - exact Hkn.
        - intros ev x Hin Hx HT. destruct (Hev ev x Hin Hx HT) as [H|(m & ->)]; [left; exact H|right; left; eauto].
        - intros pa j Hin. destruct (Hev _ _ Hin eq_refl eq_refl) as [(b & d & H)|(m & H)]; discriminate.
        - exact Hdeps.
        - intros i' it' H. lia.
        - exists vars. split; [|exact Henv]. unfold sees. destruct (t_vars t); [apply Hv|apply Hv].
        - destruct (t_vars t); [|apply Hv]. destruct Hv as (H1 & <- & H3). auto.
        - destruct Hfr as [Hf|(m & h1 & Hf & Hsi & _)]; [apply (fs_stack _ Hf)|]. eapply stack_mono; [eapply since_suffix; exact Hsi|apply (fs_stack _ Hf)].
        - destruct Hfr as [Hf|(m & h1 & Hf & Hsi & _)]; [apply (fs_begun _ Hf)|]. eapply begun_mono; [eapply since_suffix; exact Hsi|apply (fs_begun _ Hf)]. }
      unfold interpolate_env_then. destruct (decide (smap_get (merge_maps (k_env k) (t_env t)) = ∅)) as [Ee|Hne'].
      - apply Hmk; [apply ext_refl|exact Hg|]. left. split; [exact Ee|exact Ee].
      - apply free_do; [reflexivity|intros; exact I|]. simpl. intros h' order He Hg' Ha Hg2 He2.
        destruct (interpolate_env _ _ _ order) as [m|e] eqn:Ei.
        2:{ apply task_err; [auto|]. apply interpolate_env_err in Ei as (key & v & H1 & H2); [|exact Ha].
            exists T, t, vars, (smap_get (merge_maps (k_env k) (t_env t))), key, v. split; [exact Ht|]. split; [left; split; [reflexivity|split; [|split; [|reflexivity]]]|auto].
            { apply (entered_begun h); [eapply ext_suffix; exact He2| |exact Hdeps|exact Hne].
              destruct Hfr as [Hf|(m & h1 & Hf & Hsi & _)]; [apply (fs_begun _ Hf)|]. eapply begun_mono; [eapply since_suffix; exact Hsi|apply (fs_begun _ Hf)]. }
            eapply sees_mono; [eapply ext_suffix; exact He2|]. unfold sees. destruct (t_vars t); apply Hv. }
        apply Hmk; [exact He2|exact Hg2|]. right. eauto.
    Qed.

    Lemma safe_task h : fresh h -> good h -> deps_done h t -> t_run t <> [] -> safe E Qexec O h (execute_task k tasks rt t a).
    Proof.
      intros Hf Hg Hd Hne. unfold execute_task. destruct (t_vars t) as [vs|] eqn:Evs.
      - apply free_do; [reflexivity|intros; exact I|]. simpl. intros h1 order He1 Hg1 Hord Hg1' He1'.
        apply free_do; [reflexivity| |]; simpl.
        { intros h2 m He2 Hg2 Ha. exists t. split; [exact Ht|]. split; [congruence|]. left. auto. }
        intros h2 globals He2 Hg2 Hgl Hg2' He2'.
        destruct (resolve_vars getenv (Some vs) (Some globals) order) as [m|e] eqn:Er.
        2:{ apply task_err; [auto|]. exists T, t, vs, globals, order. split; [exact Ht|]. split; [reflexivity|].
            split; [apply (entered_fresh h); [eapply ext_suffix, ext_trans; eassumption|exact Hf|exact Hd|exact Hne]|]. split; [exact Evs|]. split; [|auto].
            exists h2. split; [apply suffix_cons_self|exact Hgl]. }
        set (h3 := ORead T [] 0 globals :: h2) in *.
        assert (He3 : ext any F h h3) by (eapply ext_trans; eassumption).
        eapply safe_do; [apply prot|]. simpl. intros h4 l He4 Hg4 Hk4 Hal.
        assert (Hf4 : fresh h4) by (eapply fresh_ext; [|exact Hf]; eapply ext_trans; eassumption).
        assert (HG : G h4 (OAlloc T [] m l)).
        { split; [intros x Hx; injection Hx as <-; apply fresh_active; assumption|]. simpl. split; [|congruence]. intros m' l' Hin.
          destruct (fs_events _ Hf4 _ _ Hin eq_refl eq_refl) as (b & d & H). discriminate. }
        split; [exact HG|]. split; [apply HO; reflexivity|].
        assert (Hs4 : h2 `suffix_of` OAlloc T [] m l :: h4).
        { apply suffix_cons_r. etransitivity; [apply suffix_cons_self|eapply ext_suffix; exact He4]. }
        apply safe_loop.
        + right. exists m, h4. split; [exact Hf4|]. split; [apply since_cons; [apply since_refl|auto]|].
          eapply known_suffix; [apply suffix_cons_self|exact Hk4].
        + constructor; assumption.
        + eapply deps_done_mono; [|exact Hd]. apply suffix_cons_r. eapply ext_suffix. eapply ext_trans; eassumption.
        + exact Hne.
        + rewrite Evs. split; [exists m; left|]. split; [simpl; apply decide_True; reflexivity|].
          eapply tv_base; [exact Evs| |exact Hord|exact Er|left]. exists h2. split; [exact Hs4|exact Hgl].
      - apply free_do; [reflexivity| |]; simpl.
        { intros h2 m He2 Hg2 Ha. exists t. split; [exact Ht|]. split; [congruence|]. left. auto. }
        intros h2 vars He2 Hg2 Hgl Hg2' He2'. apply safe_loop.
        + left. eapply fresh_ext; eassumption.
        + exact Hg2'.
        + eapply deps_done_mono; [eapply ext_suffix; exact He2'|exact Hd].
        + exact Hne.
        + rewrite Evs. split; [reflexivity|]. exists h2. split; [apply suffix_cons_self|exact Hgl].
    Qed.

    Lemma finish h (Q : outcome -> hist -> Prop) : (owned_events T h (fun ev => ev = OSkipTask T) /\ OSkipTask T ∈ h \/
                        (owned_events T h (fun ev => ev <> ODone T) /\ deps_done h t /\ (forall i it, t_run t !! i = Some it -> settled dry h T i it) /\ task_chosen k h t /\ (t_run t <> [] -> fits) /\
                         forall pa j, OSlot T pa j ∈ h -> OFree T pa j ∈ h)) ->
      known O h -> (forall h', ODone T ∈ h' -> Q None h') ->
      safe E Q O h (Vis (EDone T) (fun _ => Ret None)).
    Proof.
      intros Hst Hk HQ. eapply safe_do; [apply prot|]. simpl. intros h' u He Hg Hk' _.
      assert (Hs : h `suffix_of` h') by (eapply ext_suffix; exact He).
      assert (HG : G h' (ODone T)).
      { split.
        - intros x Hx. injection Hx as <-. simpl. apply (active_of k tasks root); [exact Hg|apply (Hk' (T, [], false)); apply HO; reflexivity|].
          intros Hin. apply (ext_in _ _ _ _ _ He) in Hin; [|reflexivity].
          destruct Hst as [[Hev _]|[Hev _]]; specialize (Hev _ _ Hin eq_refl eq_refl); [discriminate|congruence].
        - exists t. split; [exact Ht|]. destruct Hst as [[Hev Hsk]|(Hev & Hd & Hset & Hch & Hfit & Hsl)].
          + split; [left; split; [eapply suffix_elem; eassumption|]|].
            * intros ev x Hin Hx HT. eapply Hev; [eapply ext_in; [exact He|exact Hin|eapply touches_F; eassumption]|exact Hx|exact HT].
            * intros pa j Hin. exfalso. apply (ext_in _ _ _ _ _ He) in Hin; [|reflexivity]. specialize (Hev _ _ Hin eq_refl eq_refl). discriminate.
          + split; [right; split; [eapply deps_done_mono; eassumption|split; [|split; [eapply task_chosen_mono; eassumption|exact Hfit]]]|].
            * intros i it Hi. eapply settled_mono; [exact Hs|auto].
            * intros pa j Hin. eapply suffix_elem; [exact Hs|]. apply Hsl. eapply ext_in; [exact He|exact Hin|reflexivity]. }
      split; [exact HG|]. split; [apply HO; reflexivity|]. apply safe_ret. intros h2 He2 Hg2. apply HQ.
      eapply suffix_elem; [eapply ext_suffix; exact He2|left].
    Qed.

    Lemma safe_deps deps : forall done h kk, t_deps t = done ++ deps -> (forall d, d ∈ done -> ODone d ∈ h) -> fresh h -> good h ->
      (forall h', fresh h' -> good h' -> deps_done h' t -> safe E (Qtask T) O h' kk) ->
      safe E (Qtask T) O h (run_deps rt T deps a kk).
    Proof.
      induction deps as [|d deps IH]; intros done h kk Hde Hdone Hf Hg Hkk; simpl.
      - apply Hkk; [exact Hf|exact Hg|]. intros d Hd. apply Hdone. rewrite Hde, app_nil_r in Hd. exact Hd.
      - assert (Hin : d ∈ t_deps t) by (rewrite Hde; apply elem_of_app; right; left).
        apply safe_and_then; [intros e ha hb Hab _; apply err_ok_mono; exact Hab|].
        eapply safe_conseq; [|eapply (safe_call _ _ _ (Qtask d) O F); [apply prot| |exact (fs_known _ Hf)|]].
        3:{ pose proof Hargs as [A1 A2 A3 A4 A5].
            apply Hrt with st; [constructor; simpl; try reflexivity; assumption| | |exact Hg|exact (fs_stack _ Hf)].
            - eapply reached_dep; [exact Hreach|exact Ht|exact Hin].
            - simpl. exists t, done, deps. split; [exact Ht|]. split; [exact Hde|]. split; [exact Hdone|exact (fs_begun _ Hf)]. }
        2:{ intros x Hx. apply (fs_known _ Hf). apply HO. exact Hx. }
        intros res h2 Hs2 Hg2 [HQ He2]. destruct res as [e|]; [exact HQ|].
        apply (IH (done ++ [d])); [rewrite Hde, <- app_assoc; reflexivity| |eapply fresh_ext; eassumption|exact Hg2|exact Hkk].
        intros d' Hd'. apply elem_of_app in Hd' as [Hd'|Hd']; [eapply suffix_elem; [exact Hs2|auto]|].
        apply elem_of_list_singleton in Hd'. subst d'. exact HQ.
    Qed.
  End Task.

  (** ** Tasks *)
  Lemma stack_full st h fuel : stack fuel st h -> 2 <= fuel.
  Proof.
    intros (H1 & H2 & H3).
    assert (length st <= size tasks).
    { rewrite <- (size_dom (D := gset str)). rewrite <- (size_list_to_set (C := gset str) st) by exact H1.
      apply subseteq_size. intros n Hn. apply elem_of_list_to_set in Hn. apply elem_of_dom. apply H2. exact Hn. }
    lia.
  Qed.

  Lemma run_task_safe fuel : rt_ok fuel (run_task k tasks fuel).
  Proof.
    induction fuel as [|fuel IH]; intros E n a h st Hargs Hreach Hcall Hg Hst.
    { apply stack_full in Hst. lia. }
    simpl. apply safe_vis. simpl. intros h1 s He1 Hg1 Hk1 Hs.
    pose proof (ext_suffix _ _ _ _ He1) as Hs1.
    assert (HG : G h1 (OClaim n (a_scope a) s)).
    { split; [discriminate|]. split; [eapply called_mono; eassumption|exact Hreach]. }
    split; [exact HG|]. split; [exact I|].
    assert (Hg1' : good (OClaim n (a_scope a) s :: h1)) by (constructor; assumption).
    set (O := plus (fun _ => False) (OClaim n (a_scope a) s)).
    assert (Hret : forall h e, err_ok h e -> safe E (Qtask n) O h (Ret (Some e))).
    { intros h2 e He. apply safe_ret. intros h3 He3 _. eapply err_ok_mono; [eapply ext_suffix; exact He3|exact He]. }
    destruct s.
    - (* fresh *)
      destruct (tasks !! n) as [t|] eqn:En.
      2:{ apply Hret. split; [exact En|]. exists (a_scope a). split; [exact Hreach|left]. }
      pose proof (Hkeyed n t En) as Hn. subst n.
      set (T := t_name t) in *.
      assert (HO : within (owns_task T) O) by (intros x Hx; right; exact Hx).
      set (h2 := OClaim T (a_scope a) Fresh :: h1) in *.
      assert (Hkn : known O h2).
      { intros x [[]|Hx]. simpl in Hx. rewrite Hx. simpl. rewrite decide_True by reflexivity. discriminate. }
      assert (Hno : owned_events T h2 (fun _ => False)).
      { intros ev x Hin Hx HT. apply elem_of_cons in Hin as [->|Hin]; [discriminate|].
        apply (fresh_owned k tasks root h1 T Hg1 (eq_sym Hs) ev x Hin Hx HT). }
      assert (Hst2 : stack fuel (T :: st) h2).
      { destruct Hst as (S1 & S2 & S3). split; [|split].
        - constructor; [|exact S1]. intros Hin. destruct (S2 _ Hin) as [_ Hc]. apply (status_claimed h h1) in Hc; [|exact Hs1]. congruence.
        - intros m Hm. apply elem_of_cons in Hm as [->|Hm].
          + split; [rewrite En; eauto|]. simpl. rewrite decide_True by reflexivity. discriminate.
          + destruct (S2 m Hm) as [Hd Hc]. split; [exact Hd|]. eapply status_claimed; [|exact Hc]. apply suffix_cons_r. exact Hs1.
        - simpl. lia. }
      assert (Hcl : OClaim T (a_scope a) Fresh ∈ h2) by left.
      clearbody h2. clear HG Hs Hst Hcall Hg He1 Hk1.
      assert (Hbody : forall h3, ext any (owns_task T) h2 h3 -> good h3 -> task_chosen k h3 t ->
        safe E (Qtask T) O h3
          (let rest := run_deps (run_task k tasks fuel) T (t_deps t) a
              (match t_run t with
               | [] => Vis (EDone T) (fun _ => Ret None)
               | _ => and_then (execute_task k tasks (run_task k tasks fuel) t a) id (Vis (EDone T) (fun _ => Ret None))
               end) in
           if negb (k_dry k) && negb (is_silent [a_silent a; t_silent t; k_silent k])
           then Vis (EHeader T (a_main a) (a_out a)) (fun _ => rest) else rest)).
      { intros h3 He3 Hg3 Hwh3. cbv zeta.
        assert (Hno3 : owned_events T h3 (fun _ => False)).
        { intros ev x Hin Hx HT. eapply Hno; [eapply ext_in; [exact He3|exact Hin|unfold touches; rewrite Hx; exact HT]|exact Hx|exact HT]. }
        assert (Hrest : forall h4, fresh t O a fuel (T :: st) h4 -> good h4 ->
           safe E (Qtask T) O h4 (run_deps (run_task k tasks fuel) T (t_deps t) a
              (match t_run t with
               | [] => Vis (EDone T) (fun _ => Ret None)
               | _ => and_then (execute_task k tasks (run_task k tasks fuel) t a) id (Vis (EDone T) (fun _ => Ret None))
               end))).
        { intros h4 Hf4 Hg4. eapply (safe_deps t En E O a fuel (run_task k tasks fuel) IH (T :: st) HO Hargs Hreach (t_deps t) []).
          - reflexivity.
          - intros d Hd. inversion Hd.
          - exact Hf4.
          - exact Hg4.
          - intros h5 Hf5 Hg5 Hd5.
            assert (Hnil : t_run t = [] -> safe E (Qtask T) O h5 (Vis (EDone T) (fun _ => Ret None))).
            { intros Enil. apply (finish t En E O HO); [|apply (fs_known _ _ _ _ _ _ Hf5)|auto].
              right. split; [|split; [exact Hd5|split; [|split; [eapply fs_begun; exact Hf5|split; [congruence|]]]]].
              - intros ev x Hin Hx HT. destruct (fs_events _ _ _ _ _ _ Hf5 ev x Hin Hx HT) as (b & d & ->). discriminate.
              - intros i it Hi. rewrite Enil in Hi. discriminate.
              - intros pa j Hin. destruct (fs_events _ _ _ _ _ _ Hf5 _ _ Hin eq_refl eq_refl) as (b & d & Hb). discriminate. }
            assert (Hrun : t_run t <> [] -> safe E (Qtask T) O h5 (and_then (execute_task k tasks (run_task k tasks fuel) t a) id (Vis (EDone T) (fun _ => Ret None)))).
            { intros Hne. apply safe_and_then; [intros e ha hb Hab _; apply err_ok_mono; exact Hab|].
              eapply safe_conseq; [|apply (safe_task t En E O a fuel (run_task k tasks fuel) IH (T :: st) HO Hargs Hreach h5 Hf5 Hg5 Hd5 Hne)].
              intros r h6 Hs6 Hg6 HQ. destruct r as [e|]; [exact HQ|]. destruct HQ as ((env & l & HL) & Hfit).
              apply (finish t En E O HO); [|apply (lc_knownO _ _ _ _ _ _ _ _ _ _ HL)|auto].
              right. split; [|split; [|split; [|split; [eapply lc_begun; exact HL|split; [auto|]]]]].
              - intros ev x Hin Hx HT ->. eapply loc_notdone; [exact HL|exact Hin].
              - apply (lc_deps _ _ _ _ _ _ _ _ _ _ HL).
              - intros i it Hi. apply (lc_earlier _ _ _ _ _ _ _ _ _ _ HL); [|exact Hi]. apply lookup_lt_is_Some. eauto.
              - apply (lc_slots _ _ _ _ _ _ _ _ _ _ HL). }
            destruct (t_run t); [apply Hnil; reflexivity|apply Hrun; discriminate]. }
        destruct (negb (k_dry k) && negb (is_silent [a_silent a; t_silent t; k_silent k])) eqn:Eh.
        - apply andb_prop in Eh as [Ed Es]. apply negb_true_iff in Ed, Es.
          eapply (safe_do _ _ _ _ _ (owns_task T)); [apply protects_within; exact HO|]. simpl. intros h4 u He4 Hg4 Hk4 _.
          assert (Hno4 : owned_events T h4 (fun _ => False)).
          { intros ev x Hin Hx HT. eapply Hno3; [eapply ext_in; [exact He4|exact Hin|unfold touches; rewrite Hx; exact HT]|exact Hx|exact HT]. }
          assert (HG : G h4 (OHeader T (a_main a) (a_out a))).
          { split; [|split; [exact Ed|split; [exact Hno4|]]]. 2:{ exists t, (a_scope a). rewrite <- (ao_silent a Hargs). split; [exact En|]. split; [|exact Es]. eapply suffix_elem; [|exact Hcl]. etransitivity; [eapply ext_suffix; exact He3|eapply ext_suffix; exact He4]. }
            intros x Hx. injection Hx as <-. simpl.
            apply (active_of k tasks root); [exact Hg4|apply (Hk4 (T, [], false)); apply HO; reflexivity|].
            intros Hin. exact (Hno4 _ _ Hin eq_refl eq_refl). }
          split; [exact HG|]. split; [apply HO; reflexivity|]. apply Hrest; [|constructor; [exact Hg4|exact I|exact HG]].
          constructor.
          + eapply known_suffix; [apply suffix_cons_self|exact Hk4].
          + intros ev x Hin Hx HT. apply elem_of_cons in Hin as [->|Hin]; [eauto|]. exfalso. eapply Hno4; eassumption.
          + eapply stack_mono; [|exact Hst2]. apply suffix_cons_r. etransitivity; [eapply ext_suffix; exact He3|eapply ext_suffix; exact He4].
          + split; [eapply task_chosen_mono; [|exact Hwh3]; apply suffix_cons_r; eapply ext_suffix; exact He4|].
            right. eapply suffix_elem; [|exact Hcl]. etransitivity; [eapply ext_suffix; exact He3|eapply ext_suffix; exact He4].
        - apply Hrest; [|exact Hg3]. constructor.
          + eapply known_suffix; [eapply ext_suffix; exact He3|exact Hkn].
          + intros ev x Hin Hx HT. exfalso. eapply Hno3; eassumption.
          + eapply stack_mono; [eapply ext_suffix; exact He3|exact Hst2].
          + split; [exact Hwh3|eapply suffix_elem; [eapply ext_suffix; exact He3|exact Hcl]]. }
      destruct (t_when t) as [|wb w] eqn:Ew; [apply Hbody; [apply ext_refl|exact Hg1'|left; exact Ew]|].
      eapply (free_do t E O HO); [reflexivity| |].
      { simpl. intros h3 m He3 Hg3 Ha. exists t. split; [exact En|]. split; [congruence|]. left. auto. }
      simpl. intros h3 globals He3 Hg3 Hgl Hg3' He3'.
      destruct (evaluate (k_getenv k) globals (wb :: w)) as [[|]|e] eqn:Eev.
      + apply Hbody; [assumption|assumption|]. right. exists globals. rewrite Ew. split; [|exact Eev]. exists h3. split; [apply suffix_cons_self|exact Hgl].
      + eapply (safe_do _ _ _ _ _ (owns_task T)); [apply protects_within; exact HO|]. simpl. intros h4 u He4 Hg4 Hk4 _.
        assert (Hno4 : owned_events T h4 (fun _ => False)).
        { intros ev x Hin Hx HT. eapply Hno; [eapply ext_in; [eapply ext_trans; eassumption|exact Hin|unfold touches; rewrite Hx; exact HT]|exact Hx|exact HT]. }
        assert (HG : G h4 (OSkipTask T)).
        { split.
          - intros x Hx. injection Hx as <-. simpl. apply (active_of k tasks root); [exact Hg4|apply (Hk4 (T, [], false)); apply HO; reflexivity|].
            intros Hin. exact (Hno4 _ _ Hin eq_refl eq_refl).
          - split; [exact Hno4|]. exists t, globals. split; [exact En|]. rewrite Ew. split; [discriminate|]. split; [|exact Eev].
            exists h3. split; [|exact Hgl]. etransitivity; [apply suffix_cons_self|eapply ext_suffix; exact He4]. }
        split; [exact HG|]. split; [apply HO; reflexivity|].
        apply (finish t En E O HO); [|eapply known_suffix; [apply suffix_cons_self|exact Hk4]|auto].
        left. split; [|left]. intros ev x Hin Hx HT. apply elem_of_cons in Hin as [->|Hin]; [reflexivity|]. exfalso. eapply Hno4; eassumption.
      + apply Hret. exists t, globals. split; [exact En|]. split; [reflexivity|]. rewrite Ew.
        split; [exists (a_scope a); eapply suffix_elem; [eapply ext_suffix; exact He3'|exact Hcl]|]. split; [|exact Eev]. exists h3. split; [apply suffix_cons_self|exact Hgl].
    - (* active *)
      apply safe_vis. simpl. intros h2 m He2 Hg2 Hk2 _. split; [split; [discriminate|exact I]|]. split; [exact I|].
      apply safe_mono with O; [intros x Hx; left; exact Hx|]. apply Hret. exists n, (a_scope a). right.
      eapply suffix_elem; [eapply ext_suffix; exact He2|left].
    - (* done *)
      apply safe_ret. intros h2 He2 Hg2. simpl. eapply suffix_elem; [eapply ext_suffix; exact He2|]. right.
      apply (done_iff k tasks root); [exact Hg1|]. symmetry. exact Hs.
  Qed.

  (** ** Runs *)
  Definition run_of (h : hist) (p : prog) : Prop := rtc (cstep g) ([], run_with_tasks k tasks root) (h, p).

  Theorem run_sound h p : run_of h p ->
    good h /\ (forall r, p = Ret r -> Qtask root r h).
  Proof.
    intros Hr.
    assert (Hs : safe any (Qtask root) (fun _ => False) [] (run_with_tasks k tasks root)).
    { apply run_task_safe with [].
      - constructor; try reflexivity. left.
      - constructor.
      - exact I.
      - constructor.
      - split; [constructor|]. split; [intros n Hn; inversion Hn|]. simpl. lia. }
    destruct (adequacy g G (Qtask root) _ _ _ (fun h i => conj (fun x (H : None = Some x) => match H with end) I) Hs Hr) as (A & _ & C).
    auto.
  Qed.
End Proof.
