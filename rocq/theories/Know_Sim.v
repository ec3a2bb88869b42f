(** Comparing the executions of two programs that know which tasks are done: what either does, the
    other can do too, up to steps of its own that do not count. Like Mod_Sim, where the programs
    know only that their histories are good. *)
From Verif Require Import Base Types_Model Run_Model Sim_Proof Mod_Sim.

Definition done_in (K : gset str) (h : hist) : Prop := forall n, n ∈ K -> ODone n ∈ h.

Lemma done_in_more K h h' : (forall ev, ev ∈ h -> ev ∈ h') -> done_in K h -> done_in K h'.
Proof. intros H1 H2 n Hn. apply H1, H2, Hn. Qed.
Lemma done_in_sub K K' h : K' ⊆ K -> done_in K h -> done_in K' h.
Proof. intros H1 H2 n Hn. apply H2, H1, Hn. Qed.
Lemma done_in_union K K' h : done_in K h -> done_in K' h -> done_in (K ∪ K') h.
Proof. intros H1 H2 n Hn. apply elem_of_union in Hn as [Hn|Hn]; auto. Qed.
Lemma done_in_empty h : done_in ∅ h.
Proof. intros n Hn. contradiction (not_elem_of_empty _ Hn). Qed.
Lemma steps_keep g h p h' p' : rtc (cstep g) (h, p) (h', p') -> forall ev, ev ∈ h -> ev ∈ h'.
Proof.
  intros Hr. change (forall ev, ev ∈ (h, p).1 -> ev ∈ (h', p').1). induction Hr as [s|s1 s2 s3 Hs Hr IH]; [auto|].
  intros ev Hin. apply IH. inversion Hs; subst; cbn in *; right; exact Hin.
Qed.

Section Sim.
  Context (g1 g2 : gmap str str) (good1 good2 : hist -> Prop).
  Context (M : event -> event -> Prop) (quiet1 quiet2 : event -> Prop) (O : outcome -> outcome -> Prop).
  Notation matched := (Mod_Sim.matched M quiet1 quiet2).
  Notation logs := (Mod_Sim.logs O).

  (** [sim K Q p1 p2]: given that the tasks of [K] are done in both; if they return [r] then those of [Q r] are. *)
  Inductive sim : gset str -> (outcome -> gset str) -> prog -> prog -> Prop :=
  | sim_ret K Q r1 r2 : O r1 r2 -> Q r2 ⊆ K -> sim K Q (Ret r1) (Ret r2)
  | sim_know K K' Q p1 p2 :
      (forall h1 h2, good1 h1 -> good2 h2 -> done_in K h1 -> done_in K h2 -> done_in K' h1 /\ done_in K' h2) ->
      sim K' Q p1 p2 -> sim K Q p1 p2
  | sim_vis K Q e1 k1 e2 k2 (R : resp e1 -> resp e2 -> Prop) (gain : resp e1 -> resp e2 -> gset str) :
      (forall h1 h2 r1, matched h1 h2 -> allowed g1 h1 (obs e1 r1) ->
         exists r2, R r1 r2 /\ allowed g2 h2 (obs e2 r2) /\ M (obs e1 r1) (obs e2 r2)) ->
      (forall h1 h2 r2, matched h1 h2 -> allowed g2 h2 (obs e2 r2) ->
         exists r1, R r1 r2 /\ allowed g1 h1 (obs e1 r1) /\ M (obs e1 r1) (obs e2 r2)) ->
      (forall h1 h2 r1 r2, R r1 r2 -> good1 (obs e1 r1 :: h1) -> good2 (obs e2 r2 :: h2) ->
         done_in (gain r1 r2) (obs e1 r1 :: h1) /\ done_in (gain r1 r2) (obs e2 r2 :: h2)) ->
      (forall r1 r2, R r1 r2 -> sim (K ∪ gain r1 r2) Q (k1 r1) (k2 r2)) ->
      sim K Q (Vis e1 k1) (Vis e2 k2)
  | sim_left K Q e k p (P : resp e -> Prop) :
      (forall h r, good1 h -> done_in K h -> allowed g1 h (obs e r) -> P r /\ quiet1 (obs e r)) ->
      (forall r, P r -> sim K Q (k r) p) -> sim K Q (Vis e k) p
  | sim_right K Q e k p (P : resp e -> Prop) :
      (forall h r, good2 h -> done_in K h -> allowed g2 h (obs e r) -> P r /\ quiet2 (obs e r)) ->
      (forall r, P r -> sim K Q p (k r)) -> sim K Q p (Vis e k)
  | sim_fork K Q t pa lim c chs1 chs2 log1 log2 k1 k2 :
      chs1.*1 = chs2.*1 -> logs log1 log2 ->
      (forall j s1 s2 p1 p2, chs1 !! j = Some (s1, p1) -> chs2 !! j = Some (s2, p2) -> sim K (fun _ => ∅) p1 p2) ->
      (forall l1 l2, logs l1 l2 -> sim K Q (k1 l1) (k2 l2)) ->
      sim K Q (Fork t pa lim c chs1 log1 k1) (Fork t pa lim c chs2 log2 k2).

  Lemma sim_less K K' Q p1 p2 : K' ⊆ K -> sim K' Q p1 p2 -> sim K Q p1 p2.
  Proof. intros HK. apply sim_know. intros h1 h2 _ _ H1 H2. split; eapply done_in_sub; eassumption. Qed.
  Lemma sim_frame K Q F p1 p2 : sim K Q p1 p2 -> sim (K ∪ F) (fun r => Q r ∪ F) p1 p2.
  Proof.
    induction 1 as [K Q r1 r2 HO HQ|K K' Q p1 p2 HK H IH|K Q e1 k1 e2 k2 R gain Ha Hb Hg Hk IH|K Q e k p P Hq Hk IH|K Q e k p P Hq Hk IH|K Q t pa lim c chs1 chs2 log1 log2 k1 k2 Hst Hlog Hch IHch Hk IH].
    - apply sim_ret; [exact HO|]. apply union_mono_r. exact HQ.
    - eapply sim_know; [|exact IH]. intros h1 h2 G1 G2 D1 D2.
      destruct (HK h1 h2 G1 G2) as [E1 E2]; [eapply done_in_sub; [apply union_subseteq_l|eassumption]..|].
      split; (apply done_in_union; [assumption|]); eapply done_in_sub; [apply union_subseteq_r|exact D1|apply union_subseteq_r|exact D2].
    - eapply sim_vis; [exact Ha|exact Hb|exact Hg|]. intros r1 r2 HR. eapply sim_less; [|apply IH; exact HR].
      intros x Hx. rewrite !elem_of_union in *. tauto.
    - eapply sim_left; [|exact IH]. intros h r G D. apply Hq; [exact G|]. eapply done_in_sub; [apply union_subseteq_l|exact D].
    - eapply sim_right; [|exact IH]. intros h r G D. apply Hq; [exact G|]. eapply done_in_sub; [apply union_subseteq_l|exact D].
    - apply sim_fork; [exact Hst|exact Hlog| |exact IH]. intros j s1 s2 p1 p2 H1 H2. eapply sim_less; [apply union_subseteq_l|]. eapply Hch; eassumption.
  Qed.
  Lemma sim_post K Q Q' p1 p2 : (forall r, Q' r ⊆ Q r) -> sim K Q p1 p2 -> sim K Q' p1 p2.
  Proof.
    intros HQ'. induction 1 as [K Q r1 r2 HO HQ|K K' Q p1 p2 HK H IH|K Q e1 k1 e2 k2 R gain Ha Hb Hg Hk IH|K Q e k p P Hq Hk IH|K Q e k p P Hq Hk IH|K Q t pa lim c chs1 chs2 log1 log2 k1 k2 Hst Hlog Hch IHch Hk IH].
    - apply sim_ret; [exact HO|]. etransitivity; [apply HQ'|exact HQ].
    - eapply sim_know; [exact HK|exact (IH HQ')].
    - eapply sim_vis; [exact Ha|exact Hb|exact Hg|]. intros r1 r2 HR. apply IH; [exact HR|exact HQ'].
    - eapply sim_left; [exact Hq|]. intros r HP. apply IH; [exact HP|exact HQ'].
    - eapply sim_right; [exact Hq|]. intros r HP. apply IH; [exact HP|exact HQ'].
    - apply sim_fork; [exact Hst|exact Hlog|exact Hch|]. intros l1 l2 Hl. apply IH; [exact Hl|exact HQ'].
  Qed.
  Lemma sim_bind K Q Q' p1 p2 f1 f2 : sim K Q p1 p2 -> (forall r1 r2, O r1 r2 -> sim (Q r2) Q' (f1 r1) (f2 r2)) -> sim K Q' (bind p1 f1) (bind p2 f2).
  Proof.
    intros H. induction H as [K Q r1 r2 HO HQ|K K' Q p1 p2 HK H IH|K Q e1 k1 e2 k2 R gain Ha Hb Hg Hk IH|K Q e k p P Hq Hk IH|K Q e k p P Hq Hk IH|K Q t pa lim c chs1 chs2 log1 log2 k1 k2 Hst Hlog Hch IHch Hk IH];
      intros Hf; cbn [bind].
    - eapply sim_less; [exact HQ|]. apply Hf. exact HO.
    - eapply sim_know; [exact HK|exact (IH Hf)].
    - eapply sim_vis; [exact Ha|exact Hb|exact Hg|]. intros r1 r2 HR. apply IH; [exact HR|exact Hf].
    - eapply sim_left; [exact Hq|]. intros r HP. apply IH; [exact HP|exact Hf].
    - eapply sim_right; [exact Hq|]. intros r HP. apply IH; [exact HP|exact Hf].
    - apply sim_fork; [exact Hst|exact Hlog|exact Hch|]. intros l1 l2 Hl. apply IH; [exact Hl|exact Hf].
  Qed.

  Context (M_slot : forall t pa j, M (OSlot t pa j) (OSlot t pa j))
    (M_giveup : forall t pa j c, M (OGiveUp t pa j c) (OGiveUp t pa j c))
    (M_return : forall t pa j r1 r2, O r1 r2 -> M (OReturn t pa j r1) (OReturn t pa j r2))
    (M_free : forall t pa j, M (OFree t pa j) (OFree t pa j))
    (M_join : forall t pa, M (OJoin t pa) (OJoin t pa))
    (M_cancel : forall i, M (OCancel i) (OCancel i))
    (M_cancelled : forall h1 h2 c, matched h1 h2 -> cancelledb h1 c = cancelledb h2 c).

  Notation kept1 := (Mod_Sim.kept1 g1 good1).
  Notation kept2 := (Mod_Sim.kept2 g2 good2).

  Lemma sim_returned K Q r p2 h1 h2 : sim K Q (Ret r) p2 -> matched h1 h2 -> good1 h1 -> kept2 h2 p2 -> done_in K h1 -> done_in K h2 ->
    exists h2' r2, rtc (cstep g2) (h2, p2) (h2', Ret r2) /\ matched h1 h2' /\ O r r2.
  Proof.
    intros H. remember (Ret r) as p eqn:Hp. revert h2.
    induction H as [K Q r' r2 HO HQ|K K' Q p1 p2 HK H IH| | |K Q e k p P Hq Hk IH|]; intros h2 Hm G1 HK2 D1 D2; try discriminate Hp.
    - injection Hp as ->. exists h2, r2. split; [reflexivity|]. split; [exact Hm|exact HO].
    - destruct (HK h1 h2 G1 (kept2_now _ _ _ _ HK2) D1 D2) as [E1 E2]. apply IH; assumption.
    - subst p. destruct (allowed_ex g2 h2 e) as (a & Hal).
      assert (Hone : rtc (cstep g2) (h2, Vis e k) (obs e a :: h2, k a)) by (apply rtc_once, cs_prog; [constructor|exact Hal]).
      destruct (Hq h2 a (kept2_now _ _ _ _ HK2) D2 Hal) as [Ha Hqu].
      destruct (IH a Ha eq_refl (obs e a :: h2)) as (h2' & r2 & Hrun & Hm');
        [apply m_right; assumption|exact G1|eapply kept2_steps; eassumption|exact D1|eapply done_in_more; [|exact D2]; intros; right; assumption|].
      exists h2', r2. split; [|exact Hm']. etransitivity; eassumption.
  Qed.

  Lemma sim_update K Q (chs1 chs2 : list (cstat * prog)) j s p1 p2 :
    chs1.*1 = chs2.*1 ->
    (forall i s1 s2 q1 q2, chs1 !! i = Some (s1, q1) -> chs2 !! i = Some (s2, q2) -> sim K Q q1 q2) ->
    sim K Q p1 p2 ->
    (<[j := (s, p1)]> chs1).*1 = (<[j := (s, p2)]> chs2).*1 /\
    (forall i s1 s2 q1 q2, <[j := (s, p1)]> chs1 !! i = Some (s1, q1) -> <[j := (s, p2)]> chs2 !! i = Some (s2, q2) -> sim K Q q1 q2).
  Proof.
    intros Hs Hsim Hp. split; [rewrite !fst_insert, Hs; reflexivity|].
    intros i s1 s2 q1 q2 H1 H2. apply list_lookup_insert_Some in H1. apply list_lookup_insert_Some in H2.
    destruct H1 as [(Hi & H1 & _)|(Hne & H1)]; destruct H2 as [(Hi' & H2 & _)|(Hne' & H2)].
    - injection H1 as <- <-. injection H2 as <- <-. exact Hp.
    - contradiction (Hne' Hi).
    - contradiction (Hne Hi').
    - eapply Hsim; eassumption.
  Qed.

  (** What two programs know of their histories. *)
  Definition known (K : gset str) (h1 h2 : hist) : Prop := done_in K h1 /\ done_in K h2.
  Lemma known_steps K h1 h2 h1' h2' : (forall ev, ev ∈ h1 -> ev ∈ h1') -> (forall ev, ev ∈ h2 -> ev ∈ h2') -> known K h1 h2 -> known K h1' h2'.
  Proof. intros H1 H2 [D1 D2]. split; eapply done_in_more; eassumption. Qed.

  (** After a step the two are related again, knowing things that hold now. *)
  Definition related (Q : outcome -> gset str) (h1 h2 : hist) (p1 p2 : prog) : Prop := exists K, known K h1 h2 /\ sim K Q p1 p2.

  Lemma sim_step K Q p1 p2 ev p1' h1 h2 : sim K Q p1 p2 -> known K h1 h2 -> pstep p1 ev p1' -> allowed g1 h1 ev -> kept1 h1 p1 -> kept2 h2 p2 -> matched h1 h2 ->
    exists h2' p2', rtc (cstep g2) (h2, p2) (h2', p2') /\ matched (ev :: h1) h2' /\ related Q (ev :: h1) h2' p1' p2'.
  Proof.
    intros H. revert ev p1' h2.
    induction H as [K Q r1 r2 HO HQ|K K' Q p1 p2 HK H IH|K Q e1 k1 e2 k2 R gain Ha Hb Hg Hk IH|K Q e k p P Hq Hk IH|K Q e k p P Hq Hk IH|K Q t pa lim c chs1 chs2 log log2 k1 k2 Hst Hlog Hch IHch Hk IH];
      intros ev p1' h2 HKn Hstep Hal HK1 HK2 Hm.
    - inversion Hstep.
    - destruct HKn as [D1 D2]. apply IH; try assumption. split; apply (HK h1 h2 (kept1_now _ _ _ _ HK1) (kept2_now _ _ _ _ HK2) D1 D2).
    - apply vis_step in Hstep as (r & -> & ->).
      destruct (Ha h1 h2 r Hm Hal) as (r2 & HR & Hal2 & HM).
      exists (obs e2 r2 :: h2), (k2 r2). split; [apply rtc_once; apply cs_prog; [constructor|exact Hal2]|].
      split; [apply m_both; assumption|]. exists (K ∪ gain r r2). split; [|apply Hk; exact HR].
      destruct (Hg h1 h2 r r2 HR (kept1_next _ _ _ _ _ _ HK1 Hal) (kept2_next _ _ _ _ _ _ HK2 Hal2)) as [E1 E2]. destruct HKn as [D1 D2].
      split; (apply done_in_union; [|assumption]); [eapply done_in_more; [|exact D1]|eapply done_in_more; [|exact D2]]; intros; right; assumption.
    - apply vis_step in Hstep as (r & -> & ->).
      destruct (Hq h1 r (kept1_now _ _ _ _ HK1) (proj1 HKn) Hal) as [HP Hqu].
      exists h2, p. split; [reflexivity|]. split; [apply m_left; assumption|]. exists K. split; [|apply Hk; exact HP].
      eapply known_steps; [| |exact HKn]; [intros; right; assumption|auto].
    - destruct (allowed_ex g2 h2 e) as (a & Hal2).
      assert (Hone : rtc (cstep g2) (h2, Vis e k) (obs e a :: h2, k a)) by (apply rtc_once, cs_prog; [constructor|exact Hal2]).
      destruct (Hq h2 a (kept2_now _ _ _ _ HK2) (proj2 HKn) Hal2) as [Haa Hqu].
      destruct (IH a Haa ev p1' (obs e a :: h2)) as (h2' & p2' & Hrun & Hm' & Hs');
        [eapply known_steps; [| |exact HKn]; [auto|intros; right; assumption]|exact Hstep|exact Hal|exact HK1|eapply kept2_steps; eassumption|apply m_right; assumption|].
      exists h2', p2'. split; [|split; assumption]. etransitivity; eassumption.
    - inversion Hstep; subst.
      + match goal with Hj : chs1 !! ?j = Some (Running, ?p), Hs : pstep ?p ev ?p' |- _ =>
          destruct (same_status chs1 chs2 j _ _ Hst Hj) as (p2 & Hj2);
          destruct (IHch j _ _ p p2 Hj Hj2 ev p' h2 HKn Hs Hal (kept1_child _ _ _ _ _ _ _ _ _ _ _ _ Hj HK1) (kept2_child _ _ _ _ _ _ _ _ _ _ _ _ Hj2 HK2) Hm) as (h2' & p2' & Hrun & Hm' & K' & HKn' & Hs');
          exists h2', (Fork t pa lim c (<[j := (Running, p2')]> chs2) log2 k2);
          split; [apply (child_steps g2 t pa lim c chs2 log2 k2 j p2 h2 p2' h2' Hj2 Hrun)|split; [exact Hm'|]];
          exists (K ∪ K'); split;
          [destruct HKn as [D1 D2]; destruct HKn' as [E1 E2]; split; (apply done_in_union; [|assumption]); [eapply done_in_more; [|exact D1]; intros; right; assumption|eapply done_in_more; [|exact D2]; apply (steps_keep _ _ _ _ _ Hrun)]|];
          destruct (sim_update (K ∪ K') (fun _ => ∅) chs1 chs2 j Running p' p2' Hst) as [Hst' Hch'];
          [intros; eapply sim_less; [apply union_subseteq_l|]; eapply Hch; eassumption|eapply sim_less; [apply union_subseteq_r|exact Hs']|];
          apply sim_fork; [exact Hst'|exact Hlog|exact Hch'|intros l1 l2 Hl; eapply sim_less; [apply union_subseteq_l|apply Hk; exact Hl]]
        end.
      + match goal with Hj : chs1 !! ?j = Some (Waiting, ?p), Hlim : lim = 0 \/ _ |- _ =>
          destruct (same_status chs1 chs2 j _ _ Hst Hj) as (p2 & Hj2);
          destruct (sim_update K _ chs1 chs2 j Running p p2 Hst Hch (Hch j _ _ _ _ Hj Hj2)) as [Hst' Hch'];
          exists (OSlot t pa j :: h2), (Fork t pa lim c (<[j := (Running, p2)]> chs2) log2 k2);
          split; [apply rtc_once, cs_prog; [apply ps_slot; [exact Hj2|rewrite <- (same_active chs1 chs2 Hst); exact Hlim]|exact I]|];
          split; [apply m_both; [apply M_slot|exact Hm]|exists K; split; [eapply known_steps; [| |exact HKn]; intros; right; assumption|apply sim_fork; assumption]]
        end.
      + match goal with Hj : chs1 !! ?j = Some (Waiting, ?p), Hlim : lim <> 0 |- _ =>
          destruct (same_status chs1 chs2 j _ _ Hst Hj) as (p2 & Hj2);
          destruct (sim_update K _ chs1 chs2 j Skipped p p2 Hst Hch (Hch j _ _ _ _ Hj Hj2)) as [Hst' Hch'];
          exists (OGiveUp t pa j c :: h2), (Fork t pa lim c (<[j := (Skipped, p2)]> chs2) log2 k2);
          split; [apply rtc_once, cs_prog; [apply ps_giveup; assumption|cbn; rewrite <- (M_cancelled h1 h2 c Hm); exact Hal]|];
          split; [apply m_both; [apply M_giveup|exact Hm]|exists K; split; [eapply known_steps; [| |exact HKn]; intros; right; assumption|apply sim_fork; assumption]]
        end.
      + match goal with Hj : chs1 !! ?j = Some (Running, Ret ?r) |- _ =>
          destruct (same_status chs1 chs2 j _ _ Hst Hj) as (p2 & Hj2);
          destruct (sim_returned K _ r p2 h1 h2 (Hch j _ _ _ _ Hj Hj2) Hm (kept1_now _ _ _ _ HK1) (kept2_child _ _ _ _ _ _ _ _ _ _ _ _ Hj2 HK2) (proj1 HKn) (proj2 HKn)) as (h2' & r2 & Hrun & Hm' & HO);
          destruct (sim_update K (fun _ => ∅) chs1 chs2 j Reported (Ret r) (Ret r2) Hst Hch (sim_ret K (fun _ => ∅) r r2 HO (empty_subseteq _))) as [Hst' Hch'];
          assert (Hlog' : logs (log ++ [(j, r)]) (log2 ++ [(j, r2)])) by (apply Forall2_app; [exact Hlog|constructor; [split; [reflexivity|exact HO]|constructor]]);
          exists (OReturn t pa j r2 :: h2'), (Fork t pa lim c (<[j := (Reported, Ret r2)]> chs2) (log2 ++ [(j, r2)]) k2);
          split; [|split; [apply m_both; [apply M_return; exact HO|exact Hm']|exists K; split; [eapply known_steps; [| |exact HKn]; [intros; right; assumption|intros; right; eapply (steps_keep _ _ _ _ _ Hrun); assumption]|apply sim_fork; assumption]]];
          eapply rtc_r; [apply (child_steps g2 t pa lim c chs2 log2 k2 j p2 h2 (Ret r2) h2' Hj2 Hrun)|];
          apply cs_prog; [|exact I];
          rewrite <- (list_insert_insert chs2 j (Reported, Ret r2) (Running, Ret r2));
          apply ps_return; apply list_lookup_insert; eapply lookup_lt_Some; exact Hj2
        end.
      + match goal with Hj : chs1 !! ?j = Some (Reported, ?p) |- _ =>
          destruct (same_status chs1 chs2 j _ _ Hst Hj) as (p2 & Hj2);
          destruct (sim_update K _ chs1 chs2 j Released p p2 Hst Hch (Hch j _ _ _ _ Hj Hj2)) as [Hst' Hch'];
          exists (OFree t pa j :: h2), (Fork t pa lim c (<[j := (Released, p2)]> chs2) log2 k2);
          split; [apply rtc_once, cs_prog; [apply ps_free; exact Hj2|exact I]|];
          split; [apply m_both; [apply M_free|exact Hm]|exists K; split; [eapply known_steps; [| |exact HKn]; intros; right; assumption|apply sim_fork; assumption]]
        end.
      + exists (OJoin t pa :: h2), (k2 log2).
        split; [apply rtc_once, cs_prog; [apply ps_join; eapply same_finished; eassumption|exact I]|].
        split; [apply m_both; [apply M_join|exact Hm]|exists K; split; [eapply known_steps; [| |exact HKn]; intros; right; assumption|apply Hk; exact Hlog]].
  Qed.

  Lemma sim_run Q p1 p2 h1 p1' : sim ∅ Q p1 p2 -> kept1 [] p1 -> kept2 [] p2 -> rtc (cstep g1) ([], p1) (h1, p1') ->
    exists h2 p2', rtc (cstep g2) ([], p2) (h2, p2') /\ matched h1 h2 /\ related Q h1 h2 p1' p2'.
  Proof.
    intros H0 HK1 HK2 Hrun.
    enough (G : forall s, rtc (cstep g1) ([], p1) s ->
              exists h2 p2', rtc (cstep g2) ([], p2) (h2, p2') /\ matched s.1 h2 /\ related Q s.1 h2 s.2 p2') by exact (G _ Hrun).
    clear h1 p1' Hrun.
    apply (rtc_ind_r (fun s => exists h2 p2', rtc (cstep g2) ([], p2) (h2, p2') /\ matched s.1 h2 /\ related Q s.1 h2 s.2 p2')).
    - exists [], p2. split; [reflexivity|]. split; [constructor|]. exists ∅. split; [split; apply done_in_empty|exact H0].
    - intros [h p] [h1 p1'] Hrun Hstep IH. cbn in IH |- *. destruct IH as (h2 & p2' & Hr2 & Hm & K & HKn & Hs).
      assert (HK1' : kept1 h p) by (intros h' p' Hr; apply (HK1 h' p'); etransitivity; eassumption).
      inversion Hstep; subst.
      + match goal with Hst : pstep _ ?ev _, Hal : allowed _ _ ?ev |- _ =>
          destruct (sim_step _ _ _ _ _ _ _ _ Hs HKn Hst Hal HK1' (kept2_steps _ _ _ _ _ _ HK2 Hr2) Hm) as (h2' & p2'' & Hr & Hm' & Hs') end.
        exists h2', p2''. split; [etransitivity; eassumption|]. split; assumption.
      + match goal with |- context [OCancel ?i] => exists (OCancel i :: h2), p2' end. split; [eapply rtc_r; [exact Hr2|apply cs_cancel]|].
        split; [apply m_both; [apply M_cancel|exact Hm]|]. exists K. split; [eapply known_steps; [| |exact HKn]; intros; right; assumption|exact Hs].
  Qed.
  Lemma sim_run_end Q p1 p2 h1 r : sim ∅ Q p1 p2 -> kept1 [] p1 -> kept2 [] p2 -> rtc (cstep g1) ([], p1) (h1, Ret r) ->
    exists h2 r2, rtc (cstep g2) ([], p2) (h2, Ret r2) /\ matched h1 h2 /\ O r r2.
  Proof.
    intros H0 HK1 HK2 Hrun. destruct (sim_run _ _ _ _ _ H0 HK1 HK2 Hrun) as (h2 & p2' & Hr2 & Hm & K & [D1 D2] & Hs).
    destruct (sim_returned _ _ _ _ _ _ Hs Hm (HK1 _ _ Hrun) (kept2_steps _ _ _ _ _ _ HK2 Hr2) D1 D2) as (h2' & r2 & Hr & Hm' & HO).
    exists h2', r2. split; [etransitivity; eassumption|]. split; assumption.
  Qed.
End Sim.

(** The relation is the same from the other side. *)
Lemma ksim_sym g1 g2 good1 good2 M q1 q2 (O : outcome -> outcome -> Prop) K Q Q' p1 p2 :
  (forall r1 r2, O r1 r2 -> Q' r1 ⊆ Q r2) -> sim g1 g2 good1 good2 M q1 q2 O K Q p1 p2 ->
  sim g2 g1 good2 good1 (fun a b => M b a) q2 q1 (fun a b => O b a) K Q' p2 p1.
Proof.
  intros HQ' H. revert Q' HQ'. induction H as [K Q r1 r2 HO HQ|K K' Q p1 p2 HK H IH|K Q e1 k1 e2 k2 R gain Ha Hb Hg Hk IH|K Q e k p P Hq Hk IH|K Q e k p P Hq Hk IH|K Q t pa lim c chs1 chs2 log1 log2 k1 k2 Hst Hlog Hch IHch Hk IH];
    intros Q' HQ'.
  - constructor; [exact HO|]. etransitivity; [apply HQ'; exact HO|exact HQ].
  - eapply sim_know; [|apply IH; exact HQ']. intros h1 h2 G1 G2 D1 D2. destruct (HK h2 h1 G2 G1 D2 D1). split; assumption.
  - apply (sim_vis _ _ _ _ _ _ _ _ K Q' e2 k2 e1 k1 (fun a b => R b a) (fun a b => gain b a)).
    + intros h1 h2 r1 Hm. apply matched_sym in Hm. apply Hb; exact Hm.
    + intros h1 h2 r1 Hm. apply matched_sym in Hm. apply Ha; exact Hm.
    + intros h1 h2 r1 r2 HR G1 G2. destruct (Hg h2 h1 r2 r1 HR G2 G1). split; assumption.
    + intros r1 r2 HR. apply IH; assumption.
  - eapply sim_right; [exact Hq|]. intros r HP. apply IH; assumption.
  - eapply sim_left; [exact Hq|]. intros r HP. apply IH; assumption.
  - assert (Hl : forall a b, Mod_Sim.logs O a b <-> Mod_Sim.logs (fun x y => O y x) b a).
    { clear. intros a b. split; intros Hl; induction Hl as [|x y l1 l2 [H1 H2] Hl IHl]; constructor; try (split; [symmetry; exact H1|exact H2]); exact IHl. }
    apply sim_fork; [symmetry; exact Hst|apply Hl; exact Hlog| |].
    + intros j s1 s2 p1 p2 H1 H2. eapply IHch; [eassumption..|]. intros. reflexivity.
    + intros l1 l2 Hl'. apply IH; [apply Hl; exact Hl'|exact HQ'].
Qed.
