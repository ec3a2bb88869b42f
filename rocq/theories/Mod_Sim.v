(** Comparing the executions of two programs whose tasks have other names and that know different
    things about their own histories: what either does, the other can do too, up to steps
    of its own that do not count. *)
From Verif Require Import Base Types_Model Run_Model Sim_Proof.

(** There is always an answer. *)
Lemma allowed_ex g h e : exists r, allowed g h (obs e r).
Proof.
  assert (Hfin : forall h, exists m : gmap str status, forall n, m !! n = match status_of h n with Fresh => None | s => Some s end).
  { clear. intros h. induction h as [|ev h [m Hm]]; [exists ∅; intros n; apply lookup_empty|].
    destruct ev; try (exists m; exact Hm).
    - destruct s; try (exists m; exact Hm). exists (<[n := Active]> m). intros n'. cbn. destruct (decide (n = n')) as [->|Hne]; [apply lookup_insert|rewrite lookup_insert_ne by exact Hne; apply Hm].
    - exists (<[n := Done]> m). intros n'. cbn. destruct (decide (n = n')) as [->|Hne]; [apply lookup_insert|rewrite lookup_insert_ne by exact Hne; apply Hm]. }
  destruct e; cbn; try (exists tt; exact I); try (eexists; reflexivity); try (exact (Hfin h)).
  - exists SDir. exact I.
  - exists true. exact I.
  - exists None. exact I.
  - exists true. exact I.
Qed.

Section Sim.
  Context (g1 g2 : gmap str str) (good1 good2 : hist -> Prop).
  (** Which events correspond, which do not count, which names of tasks and which results correspond. *)
  Context (M : event -> event -> Prop) (quiet1 quiet2 : event -> Prop) (N : str -> str -> Prop) (O : outcome -> outcome -> Prop).

  Inductive matched : hist -> hist -> Prop :=
  | m_nil : matched [] []
  | m_both e1 e2 h1 h2 : M e1 e2 -> matched h1 h2 -> matched (e1 :: h1) (e2 :: h2)
  | m_left e1 h1 h2 : quiet1 e1 -> matched h1 h2 -> matched (e1 :: h1) h2
  | m_right e2 h1 h2 : quiet2 e2 -> matched h1 h2 -> matched h1 (e2 :: h2).

  Definition logs (l1 l2 : list (nat * outcome)) : Prop := Forall2 (fun a b => a.1 = b.1 /\ O a.2 b.2) l1 l2.

  (** What is known when both are about to do something. *)
  Record about (h1 h2 : hist) (e1 e2 : eff) : Prop := {
    ab_matched : matched h1 h2;
    ab_good1 : good1 h1;
    ab_good2 : good2 h2;
    ab_next1 : forall r, allowed g1 h1 (obs e1 r) -> good1 (obs e1 r :: h1);
    ab_next2 : forall r, allowed g2 h2 (obs e2 r) -> good2 (obs e2 r :: h2) }.

  (** The first is about to do what it did: of its answers only the one given is known to keep
      the history good, so the relation between answers is asked for one pair at a time. *)
  Inductive sim : prog -> prog -> Prop :=
  | sim_ret r1 r2 : O r1 r2 -> sim (Ret r1) (Ret r2)
  | sim_vis e1 k1 e2 k2 (R : resp e1 -> resp e2 -> Prop) :
      (forall h1 h2 r1, about h1 h2 e1 e2 -> allowed g1 h1 (obs e1 r1) ->
         exists r2, R r1 r2 /\ allowed g2 h2 (obs e2 r2) /\ M (obs e1 r1) (obs e2 r2)) ->
      (forall h1 h2 r2, about h1 h2 e1 e2 -> allowed g2 h2 (obs e2 r2) ->
         exists r1, R r1 r2 /\ allowed g1 h1 (obs e1 r1) /\ M (obs e1 r1) (obs e2 r2)) ->
      (forall r1 r2, R r1 r2 -> sim (k1 r1) (k2 r2)) ->
      sim (Vis e1 k1) (Vis e2 k2)
  | sim_left e k p (P : resp e -> Prop) :
      (forall h r, good1 h -> good1 (obs e r :: h) -> allowed g1 h (obs e r) -> P r /\ quiet1 (obs e r)) ->
      (forall r, P r -> sim (k r) p) -> sim (Vis e k) p
  | sim_right e k p (P : resp e -> Prop) :
      (forall h r, good2 h -> good2 (obs e r :: h) -> allowed g2 h (obs e r) -> P r /\ quiet2 (obs e r)) ->
      (forall r, P r -> sim p (k r)) -> sim p (Vis e k)
  | sim_fork t1 t2 pa lim c chs1 chs2 log1 log2 k1 k2 :
      N t1 t2 -> chs1.*1 = chs2.*1 -> logs log1 log2 ->
      (forall j s1 s2 p1 p2, chs1 !! j = Some (s1, p1) -> chs2 !! j = Some (s2, p2) -> sim p1 p2) ->
      (forall l1 l2, logs l1 l2 -> sim (k1 l1) (k2 l2)) ->
      sim (Fork t1 pa lim c chs1 log1 k1) (Fork t2 pa lim c chs2 log2 k2).

  Lemma sim_bind p1 p2 f1 f2 : sim p1 p2 -> (forall r1 r2, O r1 r2 -> sim (f1 r1) (f2 r2)) -> sim (bind p1 f1) (bind p2 f2).
  Proof.
    intros H Hf. induction H as [r1 r2 HO|e1 k1 e2 k2 R Ha Hb Hk IH|e k p P Hq Hk IH|e k p P Hq Hk IH|t1 t2 pa lim c chs1 chs2 log1 log2 k1 k2 HN Hst Hlog Hch IH Hk IHk];
      cbn [bind].
    - apply Hf. exact HO.
    - eapply sim_vis; [exact Ha|exact Hb|]. intros r1 r2 HR. apply IH. exact HR.
    - eapply sim_left; [exact Hq|]. intros r HP. apply IH. exact HP.
    - eapply sim_right; [exact Hq|]. intros r HP. apply IH. exact HP.
    - apply sim_fork; [exact HN|exact Hst|exact Hlog|exact Hch|]. intros l1 l2 Hl. apply IHk. exact Hl.
  Qed.

  Context (M_slot : forall t1 t2 pa j, N t1 t2 -> M (OSlot t1 pa j) (OSlot t2 pa j))
    (M_giveup : forall t1 t2 pa j c, N t1 t2 -> M (OGiveUp t1 pa j c) (OGiveUp t2 pa j c))
    (M_return : forall t1 t2 pa j r1 r2, N t1 t2 -> O r1 r2 -> M (OReturn t1 pa j r1) (OReturn t2 pa j r2))
    (M_free : forall t1 t2 pa j, N t1 t2 -> M (OFree t1 pa j) (OFree t2 pa j))
    (M_join : forall t1 t2 pa, N t1 t2 -> M (OJoin t1 pa) (OJoin t2 pa))
    (M_cancel : forall i, M (OCancel i) (OCancel i))
    (M_cancelled : forall h1 h2 c, matched h1 h2 -> cancelledb h1 c = cancelledb h2 c).

  (** Whatever the program does next, the history stays good. *)
  Definition kept1 (h : hist) (p : prog) : Prop := forall h' p', rtc (cstep g1) (h, p) (h', p') -> good1 h'.
  Definition kept2 (h : hist) (p : prog) : Prop := forall h' p', rtc (cstep g2) (h, p) (h', p') -> good2 h'.

  Lemma kept2_steps h p h' p' : kept2 h p -> rtc (cstep g2) (h, p) (h', p') -> kept2 h' p'.
  Proof. intros H Hs h'' p'' Hs'. apply (H h'' p''). etransitivity; eassumption. Qed.
  Lemma kept1_next h e k r : kept1 h (Vis e k) -> allowed g1 h (obs e r) -> good1 (obs e r :: h).
  Proof. intros H Hal. apply (H _ (k r)). apply rtc_once, cs_prog; [constructor|exact Hal]. Qed.
  Lemma kept2_next h e k r : kept2 h (Vis e k) -> allowed g2 h (obs e r) -> good2 (obs e r :: h).
  Proof. intros H Hal. apply (H _ (k r)). apply rtc_once, cs_prog; [constructor|exact Hal]. Qed.
  Lemma kept1_now h p : kept1 h p -> good1 h.
  Proof. intros H. apply (H h p). reflexivity. Qed.
  Lemma kept2_now h p : kept2 h p -> good2 h.
  Proof. intros H. apply (H h p). reflexivity. Qed.
  Lemma kept1_child t pa lim c chs log k j p h : chs !! j = Some (Running, p) -> kept1 h (Fork t pa lim c chs log k) -> kept1 h p.
  Proof. intros Hj H h' p' Hrun. eapply H. eapply child_steps; eassumption. Qed.
  Lemma kept2_child t pa lim c chs log k j p h : chs !! j = Some (Running, p) -> kept2 h (Fork t pa lim c chs log k) -> kept2 h p.
  Proof. intros Hj H h' p' Hrun. eapply H. eapply child_steps; eassumption. Qed.

  Lemma sim_returned r p2 h1 h2 : sim (Ret r) p2 -> matched h1 h2 -> kept2 h2 p2 ->
    exists h2' r2, rtc (cstep g2) (h2, p2) (h2', Ret r2) /\ matched h1 h2' /\ O r r2.
  Proof.
    intros H. remember (Ret r) as p eqn:Hp. revert h2.
    induction H as [r' r2 HO| | |e k p P Hq Hk IH|]; intros h2 Hm HK; try discriminate Hp.
    - injection Hp as ->. exists h2, r2. split; [reflexivity|]. split; [exact Hm|exact HO].
    - subst p. destruct (allowed_ex g2 h2 e) as (a & Hal).
      assert (Hone : rtc (cstep g2) (h2, Vis e k) (obs e a :: h2, k a)) by (apply rtc_once, cs_prog; [constructor|exact Hal]).
      destruct (Hq h2 a (kept2_now _ _ HK) (kept2_next _ _ _ _ HK Hal) Hal) as [Ha Hqu].
      destruct (IH a Ha eq_refl (obs e a :: h2)) as (h2' & r2 & Hrun & Hm'); [apply m_right; assumption|eapply kept2_steps; eassumption|].
      exists h2', r2. split; [|exact Hm']. etransitivity; eassumption.
  Qed.

  Lemma sim_update (chs1 chs2 : list (cstat * prog)) j s p1 p2 :
    chs1.*1 = chs2.*1 ->
    (forall i s1 s2 q1 q2, chs1 !! i = Some (s1, q1) -> chs2 !! i = Some (s2, q2) -> sim q1 q2) ->
    sim p1 p2 ->
    (<[j := (s, p1)]> chs1).*1 = (<[j := (s, p2)]> chs2).*1 /\
    (forall i s1 s2 q1 q2, <[j := (s, p1)]> chs1 !! i = Some (s1, q1) -> <[j := (s, p2)]> chs2 !! i = Some (s2, q2) -> sim q1 q2).
  Proof.
    intros Hs Hsim Hp. split; [rewrite !fst_insert, Hs; reflexivity|].
    intros i s1 s2 q1 q2 H1 H2. apply list_lookup_insert_Some in H1. apply list_lookup_insert_Some in H2.
    destruct H1 as [(Hi & H1 & _)|(Hne & H1)]; destruct H2 as [(Hi' & H2 & _)|(Hne' & H2)].
    - injection H1 as <- <-. injection H2 as <- <-. exact Hp.
    - contradiction (Hne' Hi).
    - contradiction (Hne Hi').
    - eapply Hsim; eassumption.
  Qed.

  Lemma sim_step p1 p2 ev p1' h1 h2 : sim p1 p2 -> pstep p1 ev p1' -> allowed g1 h1 ev -> kept1 h1 p1 -> kept2 h2 p2 -> matched h1 h2 ->
    exists h2' p2', rtc (cstep g2) (h2, p2) (h2', p2') /\ matched (ev :: h1) h2' /\ sim p1' p2'.
  Proof.
    intros H. revert ev p1' h2.
    induction H as [r r2 HO|e1 k1 e2 k2 R Ha Hb Hk IH|e k p P Hq Hk IH|e k p P Hq Hk IH|t1 t2 pa lim c chs1 chs2 log log2 k1 k2 HN Hst Hlog Hch IH Hk IHk];
      intros ev p1' h2 Hstep Hal HK1 HK2 Hm.
    - inversion Hstep.
    - apply vis_step in Hstep as (r & -> & ->).
      destruct (Ha h1 h2 r) as (r2 & HR & Hal2 & HM); [|exact Hal|].
      { constructor; [exact Hm|eapply kept1_now; exact HK1|eapply kept2_now; exact HK2|intros r' Hr'; eapply kept1_next; eassumption|intros r' Hr'; eapply kept2_next; eassumption]. }
      exists (obs e2 r2 :: h2), (k2 r2). split; [apply rtc_once; apply cs_prog; [constructor|exact Hal2]|].
      split; [apply m_both; assumption|apply Hk; exact HR].
    - apply vis_step in Hstep as (r & -> & ->).
      destruct (Hq h1 r (kept1_now _ _ HK1) (kept1_next _ _ _ _ HK1 Hal) Hal) as [HP Hqu].
      exists h2, p. split; [reflexivity|]. split; [apply m_left; assumption|apply Hk; exact HP].
    - destruct (allowed_ex g2 h2 e) as (a & Hal2).
      assert (Hone : rtc (cstep g2) (h2, Vis e k) (obs e a :: h2, k a)) by (apply rtc_once, cs_prog; [constructor|exact Hal2]).
      destruct (Hq h2 a (kept2_now _ _ HK2) (kept2_next _ _ _ _ HK2 Hal2) Hal2) as [Haa Hqu].
      destruct (IH a Haa ev p1' (obs e a :: h2) Hstep Hal HK1) as (h2' & p2' & Hrun & Hm' & Hs');
        [eapply kept2_steps; eassumption|apply m_right; assumption|].
      exists h2', p2'. split; [|split; assumption]. etransitivity; eassumption.
    - inversion Hstep; subst.
      + match goal with Hj : chs1 !! ?j = Some (Running, ?p), Hs : pstep ?p ev ?p' |- _ =>
          destruct (same_status chs1 chs2 j _ _ Hst Hj) as (p2 & Hj2);
          destruct (IH j _ _ p p2 Hj Hj2 ev p' h2 Hs Hal (kept1_child _ _ _ _ _ _ _ _ _ _ Hj HK1) (kept2_child _ _ _ _ _ _ _ _ _ _ Hj2 HK2) Hm) as (h2' & p2' & Hrun & Hm' & Hs');
          destruct (sim_update chs1 chs2 j Running p' p2' Hst Hch Hs') as [Hst' Hch'];
          exists h2', (Fork t2 pa lim c (<[j := (Running, p2')]> chs2) log2 k2);
          split; [apply (child_steps g2 t2 pa lim c chs2 log2 k2 j p2 h2 p2' h2' Hj2 Hrun)|split; [exact Hm'|apply sim_fork; assumption]]
        end.
      + match goal with Hj : chs1 !! ?j = Some (Waiting, ?p), Hlim : lim = 0 \/ _ |- _ =>
          destruct (same_status chs1 chs2 j _ _ Hst Hj) as (p2 & Hj2);
          destruct (sim_update chs1 chs2 j Running p p2 Hst Hch (Hch j _ _ _ _ Hj Hj2)) as [Hst' Hch'];
          exists (OSlot t2 pa j :: h2), (Fork t2 pa lim c (<[j := (Running, p2)]> chs2) log2 k2);
          split; [apply rtc_once, cs_prog; [apply ps_slot; [exact Hj2|rewrite <- (same_active chs1 chs2 Hst); exact Hlim]|exact I]|];
          split; [apply m_both; [apply M_slot; exact HN|exact Hm]|apply sim_fork; assumption]
        end.
      + match goal with Hj : chs1 !! ?j = Some (Waiting, ?p), Hlim : lim <> 0 |- _ =>
          destruct (same_status chs1 chs2 j _ _ Hst Hj) as (p2 & Hj2);
          destruct (sim_update chs1 chs2 j Skipped p p2 Hst Hch (Hch j _ _ _ _ Hj Hj2)) as [Hst' Hch'];
          exists (OGiveUp t2 pa j c :: h2), (Fork t2 pa lim c (<[j := (Skipped, p2)]> chs2) log2 k2);
          split; [apply rtc_once, cs_prog; [apply ps_giveup; assumption|cbn; rewrite <- (M_cancelled h1 h2 c Hm); exact Hal]|];
          split; [apply m_both; [apply M_giveup; exact HN|exact Hm]|apply sim_fork; assumption]
        end.
      + match goal with Hj : chs1 !! ?j = Some (Running, Ret ?r) |- _ =>
          destruct (same_status chs1 chs2 j _ _ Hst Hj) as (p2 & Hj2);
          destruct (sim_returned r p2 h1 h2 (Hch j _ _ _ _ Hj Hj2) Hm (kept2_child _ _ _ _ _ _ _ _ _ _ Hj2 HK2)) as (h2' & r2 & Hrun & Hm' & HO);
          destruct (sim_update chs1 chs2 j Reported (Ret r) (Ret r2) Hst Hch (sim_ret r r2 HO)) as [Hst' Hch'];
          assert (Hlog' : logs (log ++ [(j, r)]) (log2 ++ [(j, r2)])) by (apply Forall2_app; [exact Hlog|constructor; [split; [reflexivity|exact HO]|constructor]]);
          exists (OReturn t2 pa j r2 :: h2'), (Fork t2 pa lim c (<[j := (Reported, Ret r2)]> chs2) (log2 ++ [(j, r2)]) k2);
          split; [|split; [apply m_both; [apply M_return; [exact HN|exact HO]|exact Hm']|apply sim_fork; assumption]];
          eapply rtc_r; [apply (child_steps g2 t2 pa lim c chs2 log2 k2 j p2 h2 (Ret r2) h2' Hj2 Hrun)|];
          apply cs_prog; [|exact I];
          rewrite <- (list_insert_insert chs2 j (Reported, Ret r2) (Running, Ret r2));
          apply ps_return; apply list_lookup_insert; eapply lookup_lt_Some; exact Hj2
        end.
      + match goal with Hj : chs1 !! ?j = Some (Reported, ?p) |- _ =>
          destruct (same_status chs1 chs2 j _ _ Hst Hj) as (p2 & Hj2);
          destruct (sim_update chs1 chs2 j Released p p2 Hst Hch (Hch j _ _ _ _ Hj Hj2)) as [Hst' Hch'];
          exists (OFree t2 pa j :: h2), (Fork t2 pa lim c (<[j := (Released, p2)]> chs2) log2 k2);
          split; [apply rtc_once, cs_prog; [apply ps_free; exact Hj2|exact I]|];
          split; [apply m_both; [apply M_free; exact HN|exact Hm]|apply sim_fork; assumption]
        end.
      + exists (OJoin t2 pa :: h2), (k2 log2).
        split; [apply rtc_once, cs_prog; [apply ps_join; eapply same_finished; eassumption|exact I]|].
        split; [apply m_both; [apply M_join; exact HN|exact Hm]|apply Hk; exact Hlog].
  Qed.

  (** Whatever the first program does, the second can do the like. *)
  Lemma sim_run p1 p2 h1 p1' : sim p1 p2 -> kept1 [] p1 -> kept2 [] p2 -> rtc (cstep g1) ([], p1) (h1, p1') ->
    exists h2 p2', rtc (cstep g2) ([], p2) (h2, p2') /\ matched h1 h2 /\ sim p1' p2'.
  Proof.
    intros H0 HK1 HK2 Hrun.
    enough (G : forall s, rtc (cstep g1) ([], p1) s ->
              exists h2 p2', rtc (cstep g2) ([], p2) (h2, p2') /\ matched s.1 h2 /\ sim s.2 p2') by exact (G _ Hrun).
    clear h1 p1' Hrun.
    apply (rtc_ind_r (fun s => exists h2 p2', rtc (cstep g2) ([], p2) (h2, p2') /\ matched s.1 h2 /\ sim s.2 p2')).
    - exists [], p2. split; [reflexivity|]. split; [constructor|exact H0].
    - intros [h p] [h1 p1'] Hrun Hstep IH. cbn in IH |- *. destruct IH as (h2 & p2' & Hr2 & Hm & Hs).
      assert (HK1' : kept1 h p) by (intros h' p' Hr; apply (HK1 h' p'); etransitivity; eassumption).
      inversion Hstep; subst.
      + match goal with Hst : pstep _ ?ev _, Hal : allowed _ _ ?ev |- _ =>
          destruct (sim_step _ _ _ _ _ _ Hs Hst Hal HK1' (kept2_steps _ _ _ _ HK2 Hr2) Hm) as (h2' & p2'' & Hr & Hm' & Hs') end.
        exists h2', p2''. split; [etransitivity; eassumption|]. split; assumption.
      + match goal with |- context [OCancel ?i] => exists (OCancel i :: h2), p2' end. split; [eapply rtc_r; [exact Hr2|apply cs_cancel]|]. split; [|exact Hs].
        apply m_both; [apply M_cancel|exact Hm].
  Qed.
  Lemma sim_run_end p1 p2 h1 r : sim p1 p2 -> kept1 [] p1 -> kept2 [] p2 -> rtc (cstep g1) ([], p1) (h1, Ret r) ->
    exists h2 r2, rtc (cstep g2) ([], p2) (h2, Ret r2) /\ matched h1 h2 /\ O r r2.
  Proof.
    intros H0 HK1 HK2 Hrun. destruct (sim_run _ _ _ _ H0 HK1 HK2 Hrun) as (h2 & p2' & Hr2 & Hm & Hs).
    destruct (sim_returned _ _ _ _ Hs Hm (kept2_steps _ _ _ _ HK2 Hr2)) as (h2' & r2 & Hr & Hm' & HO).
    exists h2', r2. split; [etransitivity; eassumption|]. split; assumption.
  Qed.
End Sim.

(** The relation is the same from the other side. *)
Lemma matched_sym M q1 q2 h1 h2 : matched M q1 q2 h1 h2 -> matched (fun a b => M b a) q2 q1 h2 h1.
Proof. induction 1; constructor; assumption. Qed.
Lemma sim_sym g1 g2 good1 good2 M q1 q2 N O p1 p2 : sim g1 g2 good1 good2 M q1 q2 N O p1 p2 ->
  sim g2 g1 good2 good1 (fun a b => M b a) q2 q1 (fun a b => N b a) (fun a b => O b a) p2 p1.
Proof.
  assert (Habout : forall h1 h2 e1 e2, about g2 g1 good2 good1 (fun a b => M b a) q2 q1 h2 h1 e2 e1 -> about g1 g2 good1 good2 M q1 q2 h1 h2 e1 e2).
  { intros h1 h2 e1 e2 [H1 H2 H3 H4 H5]. constructor; [|assumption..]. apply (matched_sym _ _ _ _ _ H1). }
  induction 1 as [r1 r2 HO|e1 k1 e2 k2 R Ha Hb Hk IH|e k p P Hq Hk IH|e k p P Hq Hk IH|t1 t2 pa lim c chs1 chs2 log1 log2 k1 k2 HN Hst Hlog Hch IH Hk IHk].
  - constructor. exact HO.
  - apply (sim_vis _ _ _ _ _ _ _ _ _ e2 k2 e1 k1 (fun a b => R b a)); [intros; eapply Hb; eauto|intros; eapply Ha; eauto|intros; apply IH; assumption].
  - eapply sim_right; [exact Hq|exact IH].
  - eapply sim_left; [exact Hq|exact IH].
  - apply sim_fork; [exact HN|symmetry; exact Hst| | |].
    + clear -Hlog. induction Hlog as [|a b l1 l2 [H1 H2] Hl IHl]; constructor; [split; [symmetry; exact H1|exact H2]|exact IHl].
    + intros j s1 s2 p1 p2 H1 H2. eapply IH; eassumption.
    + intros l1 l2 Hl. apply IHk. clear -Hl. induction Hl as [|a b l1 l2 [H1 H2] Hl IHl]; constructor; [split; [symmetry; exact H1|exact H2]|exact IHl].
Qed.
