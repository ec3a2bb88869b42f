(** Task maps that differ in implied dependencies run alike. *)
From Verif Require Import Base Types_Model Interp_Model Cond_Model Run_Model Run_Spec Run_Logic Run_Inv Run_Proof Run_Facts P_Run Sim_Proof Mod_Sim Know_Sim Implied_Spec.

Section Implied.
  Context (k : config) (tasks1 tasks2 : taskmap) (root : str).
  Context (Hk1 : keyed tasks1) (Hw : widened_tasks tasks1 tasks2).

  Notation good1 := (good (k_vars k) (step_ok k tasks1 root)).
  Notation good2 := (good (k_vars k) (step_ok k tasks2 root)).

  Lemma tasks_fwd n t : tasks1 !! n = Some t -> exists deps, tasks2 !! n = Some (with_deps t deps) /\ widened tasks1 [] (t_deps t) deps.
  Proof. intros H. pose proof (Hw n) as Hn. rewrite H in Hn. exact Hn. Qed.
  Lemma tasks_none n : tasks1 !! n = None -> tasks2 !! n = None.
  Proof. intros H. pose proof (Hw n) as Hn. rewrite H in Hn. exact Hn. Qed.
  Lemma keyed2 : keyed tasks2.
  Proof.
    intros n t Ht. pose proof (Hw n) as Hn. destruct (tasks1 !! n) as [t1|] eqn:E; [|congruence].
    destruct Hn as (deps & H2 & _). rewrite H2 in Ht. injection Ht as <-. exact (Hk1 n t1 E).
  Qed.
  Lemma same_size : size tasks2 = size tasks1.
  Proof.
    rewrite <- !size_dom. f_equal. apply set_eq. intros n. rewrite !elem_of_dom. pose proof (Hw n) as Hn.
    destruct (tasks1 !! n) as [t|]; [destruct Hn as (deps & -> & _); split; eauto|rewrite Hn; reflexivity].
  Qed.
  Lemma widened_sub before l1 l2 d : widened tasks1 before l1 l2 -> d ∈ l1 -> d ∈ l2.
  Proof.
    induction 1 as [before|before d' l1 l2 H IH|before b d' l1 l2 Hb Hbr H IH]; intros Hd; [exact Hd| |right; auto].
    apply elem_of_cons in Hd as [->|Hd]; [left|right; auto].
  Qed.
  Lemma brings_2 b d : brings tasks1 b d -> brings tasks2 b d.
  Proof.
    induction 1 as [d|b t c d Ht Hwh Hc H IH]; [constructor|]. destruct (tasks_fwd _ _ Ht) as (deps & H2 & Hwd).
    eapply br_dep; [exact H2|exact Hwh| |exact IH]. cbn. eapply widened_sub; eassumption.
  Qed.

  (** ** Done tasks *)
  Lemma done_dep tasks h b t c : good (k_vars k) (step_ok k tasks root) h -> ODone b ∈ h -> tasks !! b = Some t -> t_when t = [] -> c ∈ t_deps t -> ODone c ∈ h.
  Proof.
    intros Hg Hd Ht Hn Hc. destruct (good_in _ _ _ _ Hg Hd) as (h0 & Hs & _ & _ & [_ (t' & Ht' & Hor & _)]).
    rewrite Ht in Ht'. injection Ht' as <-. destruct Hor as [[Hsk _]|[Hdd _]].
    - exfalso. assert (Hin : OSkipTask b ∈ h) by (eapply suffix_elem; [exact Hs|right; exact Hsk]).
      destruct (good_in _ _ _ _ Hg Hin) as (h1 & _ & _ & _ & [_ (_ & t' & gl & Ht' & Hnw & _)]). rewrite Ht in Ht'. injection Ht' as <-. contradiction (Hnw Hn).
    - eapply suffix_elem; [exact Hs|]. right. apply Hdd. exact Hc.
  Qed.
  Lemma brings_done tasks h b d : good (k_vars k) (step_ok k tasks root) h -> brings tasks b d -> ODone b ∈ h -> ODone d ∈ h.
  Proof. intros Hg. induction 1 as [d|b t c d Ht Hwh Hc H IH]; intros Hd; [exact Hd|]. apply IH. eapply done_dep; eassumption. Qed.
  Lemma brings_1 h b d : good1 h -> brings tasks1 b d -> ODone b ∈ h -> ODone d ∈ h.
  Proof. apply (brings_done tasks1). Qed.
  Lemma brings_both h b d : good2 h -> brings tasks1 b d -> ODone b ∈ h -> ODone d ∈ h.
  Proof. intros Hg Hb. apply (brings_done tasks2); [exact Hg|]. apply brings_2. exact Hb. Qed.

  (** ** Corresponding histories *)
  Definition M (e1 e2 : event) : Prop := plain_event e1 = plain_event e2.
  Definition O (r1 r2 : outcome) : Prop := plain r1 = plain r2.
  Definition quiet (ev : event) : Prop := found_done ev = true.
  Notation matched := (Mod_Sim.matched M quiet quiet).
  Notation isim := (Know_Sim.sim (k_vars k) (k_vars k) good1 good2 M quiet quiet O).

  Lemma quiet_inv ev : quiet ev -> (exists n sc, ev = OClaim n sc Done) \/ exists n, ev = OGet n Done.
  Proof. unfold quiet. destruct ev; cbn; intros H; try discriminate H; destruct s; try discriminate H; eauto. Qed.
  Ltac by_matched :=
    let Hm := fresh "Hm" in let IH := fresh "IH" in intros Hm;
    induction Hm as [|e1 e2 h1 h2 H Hm IH|e1 h1 h2 Hq Hm IH|e2 h1 h2 Hq Hm IH];
      [reflexivity| |apply quiet_inv in Hq as [(?n & ?sc & ->) | (?n & ->)]; exact IH..];
    unfold M in H; destruct e1, e2; cbn in H; try discriminate H; try exact IH; injection H; intros; subst; cbn; rewrite ?IH; try reflexivity.
  Lemma matched_status h1 h2 n : matched h1 h2 -> status_of h1 n = status_of h2 n.
  Proof. by_matched. Qed.
  Lemma matched_allocs h1 h2 : matched h1 h2 -> allocs h1 = allocs h2.
  Proof. by_matched. Qed.
  Lemma matched_heap h1 h2 l : matched h1 h2 -> heap_of (k_vars k) h1 l = heap_of (k_vars k) h2 l.
  Proof. by_matched. Qed.
  Lemma matched_cancelled h1 h2 c : matched h1 h2 -> cancelledb h1 c = cancelledb h2 c.
  Proof. by_matched. Qed.
  Lemma matched_contexts h1 h2 : matched h1 h2 -> contexts h1 = contexts h2.
  Proof. by_matched. Qed.
  Lemma plain_found e1 e2 : M e1 e2 -> found_done e1 = found_done e2.
  Proof. unfold M. destruct e1, e2; cbn; intros H; try discriminate H; try reflexivity; injection H; intros; subst; reflexivity. Qed.
  Lemma matched_effects h1 h2 : matched h1 h2 -> effects h1 = effects h2.
  Proof.
    unfold effects. induction 1 as [|e1 e2 h1 h2 H Hm IH|e1 h1 h2 Hq Hm IH|e2 h1 h2 Hq Hm IH]; [reflexivity| |unfold quiet in Hq; cbn; rewrite Hq; exact IH..].
    cbn. rewrite (plain_found _ _ H). destruct (found_done e2); cbn; [exact IH|]. rewrite H, IH. reflexivity.
  Qed.
  Lemma matched_allowed h1 h2 e r : matched h1 h2 -> allowed (k_vars k) h1 (obs e r) <-> allowed (k_vars k) h2 (obs e r).
  Proof.
    intros Hm. destruct e; cbn; try reflexivity.
    - rewrite (matched_status _ _ n Hm). reflexivity.
    - rewrite (matched_status _ _ n Hm). reflexivity.
    - split; intros H n; rewrite (H n); [rewrite (matched_status _ _ n Hm)|rewrite <- (matched_status _ _ n Hm)]; reflexivity.
    - rewrite (matched_cancelled _ _ c Hm). reflexivity.
    - rewrite (matched_allocs _ _ Hm). reflexivity.
    - rewrite (matched_heap _ _ l Hm). reflexivity.
    - rewrite (matched_cancelled _ _ (x_ctx x) Hm). reflexivity.
    - rewrite (matched_contexts _ _ Hm). reflexivity.
  Qed.

  (** ** Steps that both take *)
  Lemma vis_gain (K : gset str) (Q : outcome -> gset str) e (k1 k2 : resp e -> prog) (gain : resp e -> gset str) :
    (forall h r, good1 (obs e r :: h) -> done_in (gain r) (obs e r :: h)) ->
    (forall h r, good2 (obs e r :: h) -> done_in (gain r) (obs e r :: h)) ->
    (forall r, isim (K ∪ gain r) Q (k1 r) (k2 r)) -> isim K Q (Vis e k1) (Vis e k2).
  Proof.
    intros Hg1 Hg2 Hk. apply (Know_Sim.sim_vis _ _ _ _ _ _ _ _ K Q e k1 e k2 eq (fun r _ => gain r)).
    - intros h1 h2 r Hm Hal. exists r. split; [reflexivity|]. split; [apply (matched_allowed _ _ _ _ Hm); exact Hal|reflexivity].
    - intros h1 h2 r Hm Hal. exists r. split; [reflexivity|]. split; [apply (matched_allowed _ _ _ _ Hm); exact Hal|reflexivity].
    - intros h1 h2 r1 r2 <- G1 G2. split; auto.
    - intros r1 r2 <-. apply Hk.
  Qed.
  Lemma vis K Q e (k1 k2 : resp e -> prog) : (forall r, isim K Q (k1 r) (k2 r)) -> isim K Q (Vis e k1) (Vis e k2).
  Proof.
    intros Hk. apply (vis_gain K Q e k1 k2 (fun _ => ∅)); [intros; apply done_in_empty..|].
    intros r. eapply sim_less; [|apply Hk]. apply union_subseteq_l.
  Qed.
  Definition none (r : outcome) : gset str := ∅.
  Lemma ret K r1 r2 : plain r1 = plain r2 -> isim K none (Ret r1) (Ret r2).
  Proof. intros H. apply Know_Sim.sim_ret; [exact H|apply empty_subseteq]. Qed.
  Lemma vis_ret K Q t pa r1 r2 k1 k2 : plain r1 = plain r2 -> (forall x, isim K Q (k1 x) (k2 x)) -> isim K Q (Vis (ERet t pa r1) k1) (Vis (ERet t pa r2) k2).
  Proof.
    intros H Hk. apply (Know_Sim.sim_vis _ _ _ _ _ _ _ _ K Q (ERet t pa r1) k1 (ERet t pa r2) k2 (fun _ _ => True) (fun _ _ => ∅)).
    - intros h1 h2 r Hm Hal. exists tt. split; [exact I|]. split; [exact I|]. unfold M. cbn. rewrite H. reflexivity.
    - intros h1 h2 r Hm Hal. exists tt. split; [exact I|]. split; [exact I|]. unfold M. cbn. rewrite H. reflexivity.
    - intros. split; apply done_in_empty.
    - intros [] [] _. eapply sim_less; [|apply Hk]. apply union_subseteq_l.
  Qed.
  Lemma plain_some e1 r2 : plain (Some e1) = plain r2 -> exists e2, r2 = Some e2 /\ plain_err e1 = plain_err e2.
  Proof. destruct r2 as [e2|]; cbn; intros H; [|discriminate H]. injection H as H. eauto. Qed.
  Lemma plain_none r2 : plain None = plain r2 -> r2 = None.
  Proof. destruct r2; cbn; intros H; [discriminate H|reflexivity]. Qed.

  Definition keeps (w : rerr -> rerr) : Prop := forall e1 e2, plain_err e1 = plain_err e2 -> plain_err (w e1) = plain_err (w e2).
  (** What a call knows when it returns, and what was known before. *)
  Lemma and_then_sim K Q Q' p1 p2 w q1 q2 : keeps w -> isim K Q p1 p2 -> (forall e, Q' (Some e) = ∅) -> isim (K ∪ Q None) Q' q1 q2 -> isim K Q' (and_then p1 w q1) (and_then p2 w q2).
  Proof.
    intros Hkw Hp Hq' Hq. unfold and_then. apply (sim_frame _ _ _ _ _ _ _ _ _ _ K) in Hp. eapply sim_less; [apply (union_least K K K); reflexivity|].
    eapply sim_bind; [exact Hp|]. intros [e1|] r2 HO.
    - apply plain_some in HO as (e2 & -> & He). apply Know_Sim.sim_ret; [unfold O; cbn; rewrite (Hkw _ _ He); reflexivity|]. rewrite Hq'. apply empty_subseteq.
    - apply plain_none in HO as ->. rewrite union_comm_L. exact Hq.
  Qed.
  Lemma quiet_left K Q e k1 p (r0 : resp e) : (forall h r, good1 h -> done_in K h -> allowed (k_vars k) h (obs e r) -> r = r0) -> quiet (obs e r0) ->
    isim K Q (k1 r0) p -> isim K Q (Vis e k1) p.
  Proof. intros H Hq Hk. apply (Know_Sim.sim_left _ _ _ _ _ _ _ _ K Q e k1 p (eq r0)); [|intros r <-; exact Hk]. intros h r G D Hal. rewrite (H h r G D Hal). auto. Qed.
  Lemma quiet_right K Q e k2 p (r0 : resp e) : (forall h r, good2 h -> done_in K h -> allowed (k_vars k) h (obs e r) -> r = r0) -> quiet (obs e r0) ->
    isim K Q p (k2 r0) -> isim K Q p (Vis e k2).
  Proof. intros H Hq Hk. apply (Know_Sim.sim_right _ _ _ _ _ _ _ _ K Q e k2 p (eq r0)); [|intros r <-; exact Hk]. intros h r G D Hal. rewrite (H h r G D Hal). auto. Qed.

  Ltac walk := repeat first [apply vis; intros ?r | apply ret; reflexivity
    | match goal with |- isim _ _ (match ?x with _ => _ end) (match ?x with _ => _ end) => destruct x end
    | match goal with |- isim _ _ (if ?x then _ else _) (if ?x then _ else _) => destruct x end].

  Lemma command_sim K c t deps pa l env a : isim K none (execute_command k c t pa l env a) (execute_command k c (with_deps t deps) pa l env a).
  Proof.
    change (execute_command k c (with_deps t deps) pa l env a) with (execute_command k c t pa l env a).
    unfold execute_command. destruct (trim_space (c_cmd c)); [apply ret; reflexivity|]. apply vis. intros vars.
    destruct (interpolate _ _ _) as [cmd|e]; [|apply ret; reflexivity]. unfold interpolate_env_then.
    assert (Hrest : forall cmdenv, isim K none
       (resolve_dir_then k t pa (c_line c) (c_dir c) vars (fun d =>
            if k_dry k then Vis (EWould (t_name t) pa (WCmd cmd (size cmdenv) d)) (fun _ => Ret None)
            else
              let show := is_output [c_output c; a_output a; t_output t; k_output k] in
              let go :=
                Vis (EOrder cmdenv) (fun order =>
                let x := Proc (t_name t) pa (a_scope a) cmd
                           (command_environ (k_environ k) (a_piped a && show) (a_nocolor a) cmdenv order) d
                           show (negb (a_piped a) && show) (a_ctx a) (a_out a) in
                Vis (EStart x) (fun started =>
                if started then
                  Vis (EEnd (t_name t) pa) (fun ok =>
                  if ok then Ret None else Ret (Some (RCmdFailed (t_name t) cmd)))
                else Ret (Some (RCmdFailed (t_name t) cmd)))) in
              if is_silent [c_silent c; a_silent a; t_silent t; k_silent k] then go
              else Vis (EEcho (t_name t) pa cmd (a_out a)) (fun _ => go)))
       (resolve_dir_then k t pa (c_line c) (c_dir c) vars (fun d =>
            if k_dry k then Vis (EWould (t_name t) pa (WCmd cmd (size cmdenv) d)) (fun _ => Ret None)
            else
              let show := is_output [c_output c; a_output a; t_output t; k_output k] in
              let go :=
                Vis (EOrder cmdenv) (fun order =>
                let x := Proc (t_name t) pa (a_scope a) cmd
                           (command_environ (k_environ k) (a_piped a && show) (a_nocolor a) cmdenv order) d
                           show (negb (a_piped a) && show) (a_ctx a) (a_out a) in
                Vis (EStart x) (fun started =>
                if started then
                  Vis (EEnd (t_name t) pa) (fun ok =>
                  if ok then Ret None else Ret (Some (RCmdFailed (t_name t) cmd)))
                else Ret (Some (RCmdFailed (t_name t) cmd)))) in
              if is_silent [c_silent c; a_silent a; t_silent t; k_silent k] then go
              else Vis (EEcho (t_name t) pa cmd (a_out a)) (fun _ => go)))).
    { intros cmdenv. unfold resolve_dir_then. cbv zeta. walk. }
    destruct (decide _); [apply Hrest|]. apply vis. intros order. destruct (Run_Model.interpolate_env _ _ _ _); [apply Hrest|apply ret; reflexivity].
  Qed.

  Section Calls.
    Context (rt1 rt2 : str -> args -> prog).
    Definition upon (n : str) (r : outcome) : gset str := match r with None => {[n]} | Some _ => ∅ end.
    Context (Hrt : forall n a, isim ∅ (upon n) (rt1 n a) (rt2 n a)).

    Lemma rt_none K n a : isim K none (rt1 n a) (rt2 n a).
    Proof. eapply sim_post; [|eapply sim_less; [apply empty_subseteq|apply Hrt]]. intros r. apply empty_subseteq. Qed.

    Lemma run_item_sim K it t deps pa l env a : isim K none (execute_run_item k rt1 it t pa l env a) (execute_run_item k rt2 it (with_deps t deps) pa l env a).
    Proof.
      destruct it; cbn [execute_run_item]; [apply command_sim| | |apply ret; reflexivity..].
      - change (t_name (with_deps t deps)) with (t_name t). destruct (k_dry k); [walk|]. apply rt_none.
      - change (t_name (with_deps t deps)) with (t_name t). walk.
    Qed.

    Lemma get_status h n s tasks : good (k_vars k) (step_ok k tasks root) (OGet n s :: h) -> s = Done -> ODone n ∈ h.
    Proof. intros Hg ->. apply good_tail in Hg as (Hg & Hal & _). cbn in Hal. apply (done_iff _ _ _ _ _ Hg). symmetry. exact Hal. Qed.
    Lemma done_status tasks h n : good (k_vars k) (step_ok k tasks root) h -> ODone n ∈ h -> status_of h n = Done.
    Proof. intros Hg. apply (done_iff _ _ _ _ _ Hg). Qed.

    Definition upto (s : status) (n : str) : gset str := match s with Done => {[n]} | _ => ∅ end.

    Lemma pre_deps_sim a l1 l2 before seen1 seen2 K Q kk1 kk2 : widened tasks1 before l1 l2 -> seen1 ⊆ seen2 -> seen2 ⊆ K -> (forall d, d ∈ before -> d ∈ K) ->
      (forall e, Q (Some e) = ∅) ->
      (forall s1 s2 K', s1 ⊆ s2 -> s2 ⊆ K' -> isim K' Q (kk1 s1) (kk2 s2)) ->
      isim K Q (pre_deps rt1 l1 seen1 a kk1) (pre_deps rt2 l2 seen2 a kk2).
    Proof.
      intros H. revert seen1 seen2 K. induction H as [before|before d l1 l2 H IH|before b d l1 l2 Hb Hbr H IH]; intros seen1 seen2 K Hs Hs2 Hbef HQ Hkk.
      - apply Hkk; assumption.
      - assert (Hext : forall s, {[d]} ∪ seen1 ⊆ {[d]} ∪ seen2 /\ {[d]} ∪ seen2 ⊆ K ∪ s ∪ {[d]} /\ forall x, x ∈ d :: before -> x ∈ K ∪ s ∪ {[d]}).
        { intros s. split; [apply union_mono_l; exact Hs|]. split; [intros x Hx; rewrite !elem_of_union in *; destruct Hx as [Hx|Hx]; [auto|left; left; apply Hs2; exact Hx]|].
          intros x Hx. rewrite !elem_of_union, elem_of_singleton. apply elem_of_cons in Hx as [->|Hx]; auto. }
        cbn [pre_deps]. destruct (decide (d ∈ seen1)) as [H1|H1].
        + rewrite decide_True by (apply Hs; exact H1). apply IH; try assumption. intros x Hx. apply elem_of_cons in Hx as [->|Hx]; [apply Hs2, Hs, H1|auto].
        + destruct (decide (d ∈ seen2)) as [H2|H2].
          * apply quiet_left with (r0 := Done); [|reflexivity|].
            { intros h r G D Hal. cbn in Hal. rewrite Hal. eapply done_status; [exact G|]. apply D, Hs2, H2. }
            cbv beta. apply IH; try assumption.
            { intros x Hx. apply elem_of_union in Hx as [Hx|Hx]; [apply elem_of_singleton in Hx as ->; exact H2|apply Hs; exact Hx]. }
            intros x Hx. apply elem_of_cons in Hx as [->|Hx]; [apply Hs2, H2|auto].
          * apply (vis_gain K Q (EGet d) _ _ (fun s => upto s d)).
            { intros h s G n Hn. destruct s; cbn in Hn; try (contradiction (not_elem_of_empty _ Hn)). apply elem_of_singleton in Hn as ->. right. eapply get_status; [exact G|reflexivity]. }
            { intros h s G n Hn. destruct s; cbn in Hn; try (contradiction (not_elem_of_empty _ Hn)). apply elem_of_singleton in Hn as ->. right. eapply get_status; [exact G|reflexivity]. }
            intros s. assert (Hcall : isim (K ∪ ∅) Q (and_then (rt1 d a) (RPreDep d) (pre_deps rt1 l1 ({[d]} ∪ seen1) a kk1)) (and_then (rt2 d a) (RPreDep d) (pre_deps rt2 l2 ({[d]} ∪ seen2) a kk2))).
            { eapply and_then_sim; [intros e1 e2 He; cbn; rewrite He; reflexivity|eapply sim_less; [apply empty_subseteq|apply Hrt]|exact HQ|].
              destruct (Hext ∅) as (E1 & E2 & E3). apply IH; assumption. }
            destruct s; cbn [upto]; [exact Hcall..|]. destruct (Hext ∅) as (E1 & E2 & E3). rewrite (union_empty_r_L K) in E2, E3. apply IH; assumption.
      - cbn [pre_deps].
        eapply sim_know with (K' := K ∪ {[d]}).
        { intros h1 h2 G1 G2 D1 D2. split; (apply done_in_union; [assumption|]); intros n Hn; apply elem_of_singleton in Hn as ->.
          - eapply brings_1; [exact G1|exact Hbr|]. apply D1, Hbef, Hb.
          - eapply brings_both; [exact G2|exact Hbr|]. apply D2, Hbef, Hb. }
        destruct (decide (d ∈ seen2)) as [H2|H2].
        + apply IH; try assumption; [intros x Hx; apply elem_of_union_l, Hs2, Hx|intros x Hx; apply elem_of_union_l, Hbef, Hx].
        + apply quiet_right with (r0 := Done); [|reflexivity|].
          { intros h r G D Hal. cbn in Hal. rewrite Hal. eapply done_status; [exact G|]. apply D, elem_of_union_r, elem_of_singleton. reflexivity. }
          cbv beta. apply IH; try assumption.
          * intros x Hx. apply elem_of_union_r, Hs, Hx.
          * intros x Hx. apply elem_of_union in Hx as [Hx|Hx]; [apply elem_of_union_r, Hx|apply elem_of_union_l, Hs2, Hx].
          * intros x Hx. apply elem_of_union_l, Hbef, Hx.
    Qed.
    Lemma pre_resolve_sim a items : forall seen1 seen2 K, seen1 ⊆ seen2 -> seen2 ⊆ K -> isim K none (pre_resolve tasks1 rt1 items seen1 a) (pre_resolve tasks2 rt2 items seen2 a).
    Proof.
      induction items as [|it items IH]; intros seen1 seen2 K Hs HK; cbn [pre_resolve]; [apply ret; reflexivity|].
      destruct it as [c|r|lg|pr|o its]; try (apply IH; assumption). destruct (tasks1 !! r_task r) as [t|] eqn:Et; [|rewrite (tasks_none _ Et); apply ret; reflexivity].
      destruct (tasks_fwd _ _ Et) as (deps & -> & Hwd). cbn [t_deps with_deps].
      eapply pre_deps_sim; [exact Hwd|exact Hs|exact HK|intros d Hd; inversion Hd|reflexivity|]. intros s1 s2 K' H1 H2. apply IH; assumption.
    Qed.

    Lemma first_err_plain l1 l2 : Mod_Sim.logs O l1 l2 -> plain (first_err l1) = plain (first_err l2).
    Proof.
      induction 1 as [|[j1 r1] [j2 r2] l1 l2 [Hj Hr] Hl IH]; [reflexivity|]. cbn in Hj, Hr. subst j2. destruct r1 as [e1|].
      - apply plain_some in Hr as (e2 & -> & He). cbn. rewrite He. reflexivity.
      - apply plain_none in Hr as ->. exact IH.
    Qed.
    Lemma succeeded_same l1 l2 j : Mod_Sim.logs O l1 l2 -> succeeded l1 j = succeeded l2 j.
    Proof.
      unfold succeeded. induction 1 as [|[j1 r1] [j2 r2] l1 l2 [Hj Hr] Hl IH]; [reflexivity|]. cbn in Hj, Hr. subst j2. cbn [existsb fst snd]. rewrite IH. f_equal. f_equal.
      destruct r1 as [e1|]; [apply plain_some in Hr as (e2 & -> & _)|apply plain_none in Hr as ->]; reflexivity.
    Qed.
    Lemma fork_sim K o items t deps pa l env c sub kk1 kk2 :
      (forall l1 l2, Mod_Sim.logs O l1 l2 -> isim K none (kk1 l1) (kk2 l2)) ->
      isim K none (fork k rt1 o items t pa l env c sub kk1) (fork k rt2 o items (with_deps t deps) pa l env c sub kk2).
    Proof.
      intros Hkk. unfold fork. apply Know_Sim.sim_fork; [|constructor| |exact Hkk].
      - clear.
        assert (H : forall (f g : nat -> run_item -> cstat * prog), (forall j it, (f j it).1 = (g j it).1) -> (imap f items).*1 = (imap g items).*1).
        { induction items as [|it its IH]; intros f g Hfg; [reflexivity|]. rewrite !imap_cons. cbn. rewrite Hfg. f_equal. apply IH. intros j x. apply Hfg. }
        apply H. reflexivity.
      - intros j s1 s2 p1 p2 H1 H2. rewrite list_lookup_imap in H1, H2. destruct (items !! j) as [it|]; [|discriminate H1].
        cbn in H1, H2. injection H1 as <- <-. injection H2 as <- <-. apply run_item_sim.
    Qed.
    Lemma interleaved_sim K o items t deps pa l env a : isim K none (execute_interleaved k rt1 o items t pa l env a) (execute_interleaved k rt2 o items (with_deps t deps) pa l env a).
    Proof. unfold execute_interleaved. apply fork_sim. intros l1 l2 Hl. apply ret. apply first_err_plain. exact Hl. Qed.
    Lemma tui_sim K o items t deps pa l env a : isim K none (execute_tui k rt1 o items t pa l env a) (execute_tui k rt2 o items (with_deps t deps) pa l env a).
    Proof.
      assert (Hfin : forall l1 l2, Mod_Sim.logs O l1 l2 -> isim K none
        (if is_silent [a_silent a; t_silent t; k_silent k] then Ret (first_err l1)
         else Vis (ESummary (t_name t) pa (imap (fun j _ => succeeded l1 j) items) (match a_tui a with None => [] | Some path => [WKey path] end)) (fun _ => Ret (first_err l1)))
        (if is_silent [a_silent a; t_silent t; k_silent k] then Ret (first_err l2)
         else Vis (ESummary (t_name t) pa (imap (fun j _ => succeeded l2 j) items) (match a_tui a with None => [] | Some path => [WKey path] end)) (fun _ => Ret (first_err l2)))).
      { intros l1 l2 Hl. assert (Hr : isim K none (Ret (first_err l1)) (Ret (first_err l2))) by (apply ret, first_err_plain, Hl).
        destruct (is_silent _); [exact Hr|]. replace (imap (fun j (_ : run_item) => succeeded l1 j) items) with (imap (fun j (_ : run_item) => succeeded l2 j) items); [apply vis; intros _; exact Hr|].
        apply imap_ext. intros j x _. symmetry. apply succeeded_same. exact Hl. }
      unfold execute_tui. cbv zeta. destruct (a_tui a) as [path|]; [apply fork_sim; exact Hfin|].
      apply vis. intros i. apply vis. intros [|]; [apply fork_sim; exact Hfin|apply ret; reflexivity].
    Qed.
    Lemma parallel_sim K o items t deps pa l env a : isim K none (execute_parallel k tasks1 rt1 o items t pa l env a) (execute_parallel k tasks2 rt2 o items (with_deps t deps) pa l env a).
    Proof.
      unfold execute_parallel. cbv zeta. eapply and_then_sim; [intros e1 e2 He; exact He|apply pre_resolve_sim; [reflexivity|apply empty_subseteq]|reflexivity|].
      change (t_name (with_deps t deps)) with (t_name t). destruct (k_dry k); [walk|]. destruct (_ && _); [apply tui_sim|apply interleaved_sim].
    Qed.
    Lemma item_sim K it t deps i l env a : isim K none (execute_item k tasks1 rt1 it t i l env a) (execute_item k tasks2 rt2 it (with_deps t deps) i l env a).
    Proof.
      destruct it; cbn [execute_item]; try apply run_item_sim; change (t_name (with_deps t deps)) with (t_name t).
      - walk.
      - destruct (k_dry k); [walk|]. apply vis. intros vars. apply vis. intros l'. apply parallel_sim.
    Qed.
    Lemma items_sim t deps l env a items : forall K i executed skipped,
      isim K none (execute_items k tasks1 rt1 items t i executed skipped l env a) (execute_items k tasks2 rt2 items (with_deps t deps) i executed skipped l env a).
    Proof.
      induction items as [|it items IH]; intros K i executed skipped; cbn [execute_items]; change (t_name (with_deps t deps)) with (t_name t); [walk|].
      apply vis. intros [|]; [apply ret; reflexivity|]. destruct (negb _); [apply vis; intros _; apply IH|]. cbv zeta.
      match goal with |- isim _ _ (match _ with [] => ?p | _ => _ end) (match _ with [] => ?q | _ => _ end) => assert (Hgo : isim K none p q) end.
      { eapply sim_bind; [apply item_sim|]. intros [e1|] r2 HO.
        - apply plain_some in HO as (e2 & -> & He). apply vis_ret; [cbn; rewrite He; reflexivity|]. intros _. apply ret. cbn. rewrite He. reflexivity.
        - apply plain_none in HO as ->. apply vis_ret; [reflexivity|]. intros _. apply IH. }
      destruct (item_when it); [exact Hgo|]. apply vis. intros vars. destruct (evaluate _ _ _) as [[|]|e]; [exact Hgo|apply vis; intros _; apply IH|apply ret; reflexivity].
    Qed.
    Lemma task_sim K t deps a : isim K none (execute_task k tasks1 rt1 t a) (execute_task k tasks2 rt2 (with_deps t deps) a).
    Proof.
      unfold execute_task, interpolate_env_then. cbv zeta. change (t_name (with_deps t deps)) with (t_name t). change (t_vars (with_deps t deps)) with (t_vars t).
      change (t_env (with_deps t deps)) with (t_env t). change (t_line (with_deps t deps)) with (t_line t). change (t_run (with_deps t deps)) with (t_run t).
      destruct (t_vars t) as [vs|].
      - apply vis. intros order. apply vis. intros gl. destruct (resolve_vars _ _ _ _); [|apply ret; reflexivity]. apply vis. intros l.
        destruct (decide _); [apply items_sim|]. apply vis. intros ord. destruct (Run_Model.interpolate_env _ _ _ _); [apply items_sim|apply ret; reflexivity].
      - apply vis. intros vars.
        destruct (decide _); [apply items_sim|]. apply vis. intros ord. destruct (Run_Model.interpolate_env _ _ _ _); [apply items_sim|apply ret; reflexivity].
    Qed.
  End Calls.

  (** The dependencies of a task, where a call that finds the task done returns at once. *)
  Lemma deps_sim rt1 rt2 n a Q kk1 kk2 : (forall n a, isim ∅ (upon n) (rt1 n a) (rt2 n a)) ->
    (forall d a', exists k', rt2 d a' = Vis (EClaim d (a_scope a')) k' /\ k' Done = Ret None) -> (forall e, Q (Some e) = ∅) ->
    isim ∅ Q kk1 kk2 ->
    forall before l1 l2, widened tasks1 before l1 l2 -> forall K, (forall d, d ∈ before -> d ∈ K) ->
    isim K Q (run_deps rt1 n l1 a kk1) (run_deps rt2 n l2 a kk2).
  Proof.
    intros Hrt Hclaim HQ Hkk before l1 l2 H. induction H as [before|before d l1 l2 H IH|before b d l1 l2 Hb Hbr H IH]; intros K Hbef; cbn [run_deps].
    - eapply sim_less; [apply empty_subseteq|exact Hkk].
    - eapply and_then_sim; [intros e1 e2 He; cbn; rewrite He; reflexivity|eapply sim_less; [apply empty_subseteq|apply Hrt]|exact HQ|].
      apply IH. intros x Hx. apply elem_of_cons in Hx as [->|Hx]; [apply elem_of_union_r, elem_of_singleton; reflexivity|apply elem_of_union_l, Hbef, Hx].
    - match goal with |- context [rt2 d ?a'] => destruct (Hclaim d a') as (k' & -> & Hk') end. unfold and_then. cbn [bind].
      apply quiet_right with (r0 := Done); [|reflexivity|rewrite Hk'; cbn [bind]; apply IH; exact Hbef].
      intros h r G D Hal. cbn in Hal. rewrite Hal. apply (done_status tasks2); [exact G|]. eapply brings_both; [exact G|exact Hbr|]. apply D, Hbef, Hb.
  Qed.

  Lemma claim_gain tasks h n sc s : good (k_vars k) (step_ok k tasks root) (OClaim n sc s :: h) -> done_in (upto s n) (OClaim n sc s :: h).
  Proof.
    intros Hg m Hm. destruct s; cbn in Hm; try (contradiction (not_elem_of_empty _ Hm)). apply elem_of_singleton in Hm as ->.
    apply good_tail in Hg as (Hg & Hal & _). cbn in Hal. right. apply (done_iff _ _ _ _ _ Hg). symmetry. exact Hal.
  Qed.

  Lemma ret_upon K n e1 e2 : plain_err e1 = plain_err e2 -> isim K (upon n) (Ret (Some e1)) (Ret (Some e2)).
  Proof. intros H. apply Know_Sim.sim_ret; [unfold O; cbn; rewrite H; reflexivity|apply empty_subseteq]. Qed.
  Lemma finish_sim K n : isim K (upon n) (Vis (EDone n) (fun _ => Ret None)) (Vis (EDone n) (fun _ => Ret None)).
  Proof.
    apply (vis_gain K (upon n) (EDone n) _ _ (fun _ => {[n]})); [intros h r _ m Hm; apply elem_of_singleton in Hm as ->; left..|].
    intros _. apply Know_Sim.sim_ret; [reflexivity|]. apply union_subseteq_r.
  Qed.

  Lemma run_task_sim fuel : forall n a, isim ∅ (upon n) (run_task k tasks1 fuel n a) (run_task k tasks2 fuel n a).
  Proof.
    induction fuel as [|f IH]; intros n a; cbn [run_task]; [apply ret_upon; reflexivity|].
    apply (vis_gain ∅ (upon n) (EClaim n (a_scope a)) _ _ (fun s => upto s n)); [intros h s G; eapply claim_gain; exact G..|].
    intros [| |]; cbn [upto]; [|apply vis; intros m; apply ret_upon; reflexivity|apply Know_Sim.sim_ret; [reflexivity|apply union_subseteq_r]].
    destruct (tasks1 !! n) as [t|] eqn:Et; [|rewrite (tasks_none _ Et); apply ret_upon; reflexivity].
    destruct (tasks_fwd _ _ Et) as (deps & -> & Hwd). cbv zeta.
    change (t_when (with_deps t deps)) with (t_when t). change (t_silent (with_deps t deps)) with (t_silent t).
    change (t_run (with_deps t deps)) with (t_run t). change (t_line (with_deps t deps)) with (t_line t). change (t_deps (with_deps t deps)) with deps.
    match goal with |- isim _ _ (match t_when t with [] => ?p | _ => _ end) (match _ with [] => ?q | _ => _ end) => assert (Hbody : isim (∅ ∪ ∅) (upon n) p q) end.
    { match goal with |- isim _ _ (if ?b then Vis ?e (fun _ => ?p) else _) (if _ then Vis ?e' (fun _ => ?q) else _) =>
        assert (Hrest : isim (∅ ∪ ∅) (upon n) p q); [|destruct b; [apply vis; intros _|]; exact Hrest] end.
      match goal with |- isim _ _ (run_deps _ _ _ _ ?p) (run_deps _ _ _ _ ?q) => assert (Hkk : isim ∅ (upon n) p q) end.
      { destruct (t_run t) as [|it its]; [apply finish_sim|].
        eapply and_then_sim; [intros e1 e2 He; exact He|apply task_sim; exact IH|reflexivity|]. apply finish_sim. }
      destruct f as [|f'].
      - (* the fuel is at its end: nothing has been done before the first dependency, so it is one of both *)
        inversion Hwd as [? E1 E2|? d l1 l2 Hl E0 E1 E2|? b d l1 l2 Hb]; subst; [|cbn; apply ret_upon; reflexivity|inversion Hb].
        cbn [run_deps]. eapply sim_less; [apply empty_subseteq|exact Hkk].
      - eapply deps_sim; [exact IH| |reflexivity|exact Hkk|exact Hwd|intros d Hd; inversion Hd].
        intros d a'. eexists. cbn [run_task]. split; reflexivity. }
    destruct (t_when t) as [|c w]; [exact Hbody|]. apply vis. intros gl. destruct (evaluate _ _ _) as [[|]|e]; [exact Hbody| |apply ret_upon; reflexivity].
    apply vis. intros _. apply finish_sim.
  Qed.

  Lemma root_sim : isim ∅ (upon root) (run_with_tasks k tasks1 root) (run_with_tasks k tasks2 root).
  Proof. unfold run_with_tasks. rewrite same_size. apply run_task_sim. Qed.

  Lemma kept_1 : kept1 (k_vars k) good1 [] (run_with_tasks k tasks1 root).
  Proof. intros h p Hrun. eapply run_good; [exact Hk1|exact Hrun]. Qed.
  Lemma kept_2 : kept2 (k_vars k) good2 [] (run_with_tasks k tasks2 root).
  Proof. intros h p Hrun. eapply run_good; [exact keyed2|exact Hrun]. Qed.
  Lemma cancelled_sym h1 h2 c : Mod_Sim.matched (fun a b => M b a) quiet quiet h2 h1 -> cancelledb h2 c = cancelledb h1 c.
  Proof. intros H. symmetry. apply matched_cancelled. apply (matched_sym _ _ _ _ _ H). Qed.
  Lemma sym_sim : Know_Sim.sim (k_vars k) (k_vars k) good2 good1 (fun a b => M b a) quiet quiet (fun a b => O b a) ∅ (upon root) (run_with_tasks k tasks2 root) (run_with_tasks k tasks1 root).
  Proof.
    eapply ksim_sym; [|exact root_sim]. intros [e1|] r2 HO; [apply empty_subseteq|]. apply plain_none in HO as ->. reflexivity.
  Qed.

  Theorem widened_runs h p : run_of k tasks1 root h p -> exists h' p', run_of k tasks2 root h' p' /\ effects h = effects h'.
  Proof.
    intros Hrun. destruct (Know_Sim.sim_run (k_vars k) (k_vars k) good1 good2 M quiet quiet O) with (Q := upon root) (p1 := run_with_tasks k tasks1 root) (p2 := run_with_tasks k tasks2 root) (h1 := h) (p1' := p)
      as (h' & p' & Hrun' & Hm & _); [intros; unfold M; cbn; congruence..|intros; apply matched_cancelled; assumption|exact root_sim|exact kept_1|exact kept_2|exact Hrun|].
    exists h', p'. split; [exact Hrun'|]. apply matched_effects. exact Hm.
  Qed.
  Theorem widened_ends h x : run_of k tasks1 root h (Ret x) -> exists h' x', run_of k tasks2 root h' (Ret x') /\ effects h = effects h' /\ plain x = plain x'.
  Proof.
    intros Hrun. destruct (Know_Sim.sim_run_end (k_vars k) (k_vars k) good1 good2 M quiet quiet O) with (Q := upon root) (p1 := run_with_tasks k tasks1 root) (p2 := run_with_tasks k tasks2 root) (h1 := h) (r := x)
      as (h' & x' & Hrun' & Hm & Hx); [intros; unfold M; cbn; congruence..|intros; apply matched_cancelled; assumption|exact root_sim|exact kept_1|exact kept_2|exact Hrun|].
    exists h', x'. split; [exact Hrun'|]. split; [|exact Hx]. apply matched_effects. exact Hm.
  Qed.
  Theorem narrowed_runs h' p' : run_of k tasks2 root h' p' -> exists h p, run_of k tasks1 root h p /\ effects h = effects h'.
  Proof.
    intros Hrun. destruct (Know_Sim.sim_run (k_vars k) (k_vars k) good2 good1 (fun a b => M b a) quiet quiet (fun a b => O b a)) with (Q := upon root) (p2 := run_with_tasks k tasks1 root) (p1 := run_with_tasks k tasks2 root) (h1 := h') (p1' := p')
      as (h & p & Hrun' & Hm & _); [intros; unfold M; cbn; congruence..|intros; eapply cancelled_sym; eassumption|exact sym_sim|exact kept_2|exact kept_1|exact Hrun|].
    exists h, p. split; [exact Hrun'|]. apply matched_effects. apply (matched_sym _ _ _ _ _ Hm).
  Qed.
  Theorem narrowed_ends h' x' : run_of k tasks2 root h' (Ret x') -> exists h x, run_of k tasks1 root h (Ret x) /\ effects h = effects h' /\ plain x = plain x'.
  Proof.
    intros Hrun. destruct (Know_Sim.sim_run_end (k_vars k) (k_vars k) good2 good1 (fun a b => M b a) quiet quiet (fun a b => O b a)) with (Q := upon root) (p2 := run_with_tasks k tasks1 root) (p1 := run_with_tasks k tasks2 root) (h1 := h') (r := x')
      as (h & x & Hrun' & Hm & Hx); [intros; unfold M; cbn; congruence..|intros; eapply cancelled_sym; eassumption|exact sym_sim|exact kept_2|exact kept_1|exact Hrun|].
    exists h, x. split; [exact Hrun'|]. split; [|exact Hx]. apply matched_effects. apply (matched_sym _ _ _ _ _ Hm).
  Qed.
End Implied.
