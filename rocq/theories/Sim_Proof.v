(** Comparing the executions of two programs: when the first does something the second
    can do the like, up to steps of its own that do not count. *)
From Verif Require Import Base Types_Model Run_Model.

Lemma vis_step e k ev p' : pstep (Vis e k) ev p' -> exists r, ev = obs e r /\ p' = k r.
Proof.
  refine (fun H => match H in pstep p ev' p'' return match p with Vis e' k' => exists r, ev' = obs e' r /\ p'' = k' r | _ => True end with
                   | ps_vis e k r => _
                   | _ => I
                   end).
  exists r. split; reflexivity.
Qed.

Section Sim.
  Context (g1 g2 : gmap str str).
  (** Which actions of the first program correspond to which of the second, which do not
      count, which contexts and which results correspond, and which actions of the first are considered. *)
  Context (M : event -> event -> Prop) (quiet : event -> Prop) (C : ctx -> ctx -> Prop) (fair : event -> Prop)
    (O : outcome -> outcome -> Prop).

  Inductive matched : hist -> hist -> Prop :=
  | m_nil : matched [] []
  | m_both e1 e2 h1 h2 : M e1 e2 -> fair e1 -> matched h1 h2 -> matched (e1 :: h1) (e2 :: h2)
  | m_left e1 h1 h2 : quiet e1 -> fair e1 -> matched h1 h2 -> matched (e1 :: h1) h2
  | m_right e2 h1 h2 : quiet e2 -> matched h1 h2 -> matched h1 (e2 :: h2).

  Definition logs (l1 l2 : list (nat * outcome)) : Prop := Forall2 (fun a b => a.1 = b.1 /\ O a.2 b.2) l1 l2.

  Inductive sim : prog -> prog -> Prop :=
  | sim_ret r1 r2 : O r1 r2 -> sim (Ret r1) (Ret r2)
  | sim_vis e1 k1 e2 k2 (R : resp e1 -> resp e2 -> Prop) :
      (forall h1 h2 r1, matched h1 h2 -> fair (obs e1 r1) -> allowed g1 h1 (obs e1 r1) ->
         exists r2, R r1 r2 /\ allowed g2 h2 (obs e2 r2) /\ M (obs e1 r1) (obs e2 r2)) ->
      (forall r1 r2, R r1 r2 -> sim (k1 r1) (k2 r2)) ->
      sim (Vis e1 k1) (Vis e2 k2)
  | sim_left e k p :
      (forall r, fair (obs e r) -> quiet (obs e r)) -> (forall r, fair (obs e r) -> sim (k r) p) -> sim (Vis e k) p
  | sim_right e k p (P : resp e -> Prop) :
      (forall h1 h2, matched h1 h2 -> exists r, P r /\ allowed g2 h2 (obs e r) /\ quiet (obs e r)) ->
      (forall r, P r -> sim p (k r)) -> sim p (Vis e k)
  | sim_fork t pa lim c1 c2 chs1 chs2 log1 log2 k1 k2 :
      C c1 c2 -> chs1.*1 = chs2.*1 -> logs log1 log2 ->
      (forall j s1 s2 p1 p2, chs1 !! j = Some (s1, p1) -> chs2 !! j = Some (s2, p2) -> sim p1 p2) ->
      (forall l1 l2, logs l1 l2 -> sim (k1 l1) (k2 l2)) ->
      sim (Fork t pa lim c1 chs1 log1 k1) (Fork t pa lim c2 chs2 log2 k2).

  Context (M_slot : forall t pa j, M (OSlot t pa j) (OSlot t pa j))
    (M_giveup : forall t pa j c1 c2, C c1 c2 -> M (OGiveUp t pa j c1) (OGiveUp t pa j c2))
    (M_return : forall t pa j r1 r2, O r1 r2 -> M (OReturn t pa j r1) (OReturn t pa j r2))
    (M_free : forall t pa j, M (OFree t pa j) (OFree t pa j))
    (M_join : forall t pa, M (OJoin t pa) (OJoin t pa))
    (M_cancel : forall i, fair (OCancel i) -> M (OCancel i) (OCancel i))
    (C_cancelled : forall h1 h2 c1 c2, matched h1 h2 -> C c1 c2 -> cancelledb h1 c1 = true -> cancelledb h2 c2 = true).

  Lemma sim_returned r p2 h1 h2 : sim (Ret r) p2 -> matched h1 h2 ->
    exists h2' r2, rtc (cstep g2) (h2, p2) (h2', Ret r2) /\ matched h1 h2' /\ O r r2.
  Proof.
    intros H. remember (Ret r) as p eqn:Hp. revert h2.
    induction H as [r' r2 HO| | |e k p P Hq Hk IH|]; intros h2 Hm; try discriminate Hp.
    - injection Hp as ->. exists h2, r2. split; [reflexivity|]. split; [exact Hm|exact HO].
    - subst p. destruct (Hq h1 h2 Hm) as (a & Ha & Hal & Hqu).
      destruct (IH a Ha eq_refl (obs e a :: h2)) as (h2' & r2 & Hrun & Hm'); [apply m_right; assumption|].
      exists h2', r2. split; [|exact Hm']. eapply rtc_l; [|exact Hrun]. apply cs_prog; [constructor|exact Hal].
  Qed.

  Lemma child_steps t pa lim c chs log k j p h p' h' : chs !! j = Some (Running, p) ->
    rtc (cstep g2) (h, p) (h', p') ->
    rtc (cstep g2) (h, Fork t pa lim c chs log k) (h', Fork t pa lim c (<[j := (Running, p')]> chs) log k).
  Proof.
    intros Hj Hrun. remember (h, p) as s eqn:Hs. remember (h', p') as s' eqn:Hs'.
    revert h p chs Hs Hj. induction Hrun as [s|s s1 s2 Hstep Hrun IH]; intros h p chs Hs Hj.
    - rewrite Hs in Hs'. injection Hs' as <- <-. rewrite list_insert_id by exact Hj. reflexivity.
    - subst s s2. destruct s1 as [h1 p1].
      assert (Hlen : j < length chs) by (eapply lookup_lt_Some; exact Hj).
      assert (Hone : cstep g2 (h, Fork t pa lim c chs log k) (h1, Fork t pa lim c (<[j := (Running, p1)]> chs) log k)).
      { inversion Hstep; subst.
        - apply cs_prog; [|assumption]. eapply ps_child; eassumption.
        - rewrite list_insert_id by exact Hj. apply cs_cancel. }
      eapply rtc_l; [exact Hone|].
      pose proof (IH eq_refl h1 p1 (<[j := (Running, p1)]> chs) eq_refl) as H2.
      rewrite list_lookup_insert in H2 by exact Hlen. specialize (H2 eq_refl).
      rewrite list_insert_insert in H2. exact H2.
  Qed.

  Lemma same_status (chs1 chs2 : list (cstat * prog)) j s p : chs1.*1 = chs2.*1 -> chs1 !! j = Some (s, p) -> exists p', chs2 !! j = Some (s, p').
  Proof.
    intros H Hj. assert (H1 : chs1.*1 !! j = Some s) by (rewrite list_lookup_fmap, Hj; reflexivity).
    rewrite H, list_lookup_fmap in H1. destruct (chs2 !! j) as [[s' p']|]; [|discriminate H1].
    injection H1 as ->. exists p'. reflexivity.
  Qed.
  Lemma same_active (chs1 chs2 : list (cstat * prog)) : chs1.*1 = chs2.*1 -> active chs1 = active chs2.
  Proof.
    unfold active. revert chs2. induction chs1 as [|[s p] l IH]; intros [|[s' p'] l'] H; try discriminate H; [reflexivity|].
    injection H as <- H. rewrite !filter_cons. cbn. destruct (decide (s = Running \/ s = Reported)); cbn; rewrite (IH l' H); reflexivity.
  Qed.
  Lemma same_finished (chs1 chs2 : list (cstat * prog)) : chs1.*1 = chs2.*1 -> Forall finished chs1 -> Forall finished chs2.
  Proof.
    intros H Hf. apply Forall_lookup. intros j [s p] Hj. destruct (same_status chs2 chs1 j s p (eq_sym H) Hj) as (p' & Hj').
    exact (proj1 (Forall_lookup _ _) Hf _ _ Hj').
  Qed.
  Lemma fst_insert (chs : list (cstat * prog)) j s p : (<[j := (s, p)]> chs).*1 = <[j := s]> (chs.*1).
  Proof. apply (list_fmap_insert fst chs j (s, p)). Qed.

  (** What one goroutine of a block does changes only that one. *)
  Lemma sim_update (chs1 chs2 : list (cstat * prog)) j s p1 p2 :
    chs1.*1 = chs2.*1 ->
    (forall i s1 s2 q1 q2, chs1 !! i = Some (s1, q1) -> chs2 !! i = Some (s2, q2) -> sim q1 q2) ->
    sim p1 p2 ->
    (<[j := (s, p1)]> chs1).*1 = (<[j := (s, p2)]> chs2).*1 /\
    (forall i s1 s2 q1 q2, <[j := (s, p1)]> chs1 !! i = Some (s1, q1) -> <[j := (s, p2)]> chs2 !! i = Some (s2, q2) -> sim q1 q2).
  Proof.
    intros Hs Hsim Hp. split; [rewrite !fst_insert, Hs; reflexivity|].
    intros i s1 s2 q1 q2 H1 H2. apply list_lookup_insert_Some in H1. apply list_lookup_insert_Some in H2.
    destruct H1 as [(Hi & H1 & _)|(Hne & H1)]; destruct H2 as [(Hi' & H2 & _)|(Hne' & H2)].
    - injection H1 as <- <-. injection H2 as <- <-. exact Hp.
    - contradiction (Hne' Hi).
    - contradiction (Hne Hi').
    - eapply Hsim; eassumption.
  Qed.

  Lemma sim_step p1 p2 ev p1' h1 h2 : sim p1 p2 -> pstep p1 ev p1' -> fair ev -> allowed g1 h1 ev -> matched h1 h2 ->
    exists h2' p2', rtc (cstep g2) (h2, p2) (h2', p2') /\ matched (ev :: h1) h2' /\ sim p1' p2'.
  Proof.
    intros H. revert ev p1' h2.
    induction H as [r r2 HO|e1 k1 e2 k2 R Ha Hk IH|e k p Hq Hk IH|e k p P Hq Hk IH|t pa lim c1 c2 chs1 chs2 log log2 k1 k2 HC Hst Hlog Hch IH Hk IHk];
      intros ev p1' h2 Hstep Hfair Hal Hm.
    - inversion Hstep.
    - apply vis_step in Hstep as (r & -> & ->).
      destruct (Ha h1 h2 r Hm Hfair Hal) as (r2 & HR & Hal2 & HM).
      exists (obs e2 r2 :: h2), (k2 r2). split; [apply rtc_once; apply cs_prog; [constructor|exact Hal2]|].
      split; [apply m_both; assumption|apply Hk; exact HR].
    - apply vis_step in Hstep as (r & -> & ->).
      exists h2, p. split; [reflexivity|]. split; [apply m_left; [apply Hq|..]; assumption|apply Hk; exact Hfair].
    - destruct (Hq h1 h2 Hm) as (a & Haa & Hal2 & Hqu).
      destruct (IH a Haa ev p1' (obs e a :: h2) Hstep Hfair Hal) as (h2' & p2' & Hrun & Hm' & Hs'); [apply m_right; assumption|].
      exists h2', p2'. split; [|split; assumption]. eapply rtc_l; [|exact Hrun]. apply cs_prog; [constructor|exact Hal2].
    - inversion Hstep; subst.
      + (* child *)
        match goal with Hj : chs1 !! ?j = Some (Running, ?p), Hs : pstep ?p ev ?p' |- _ =>
          destruct (same_status chs1 chs2 j _ _ Hst Hj) as (p2 & Hj2);
          destruct (IH j _ _ p p2 Hj Hj2 ev p' h2 Hs Hfair Hal Hm) as (h2' & p2' & Hrun & Hm' & Hs');
          destruct (sim_update chs1 chs2 j Running p' p2' Hst Hch Hs') as [Hst' Hch'];
          exists h2', (Fork t pa lim c2 (<[j := (Running, p2')]> chs2) log2 k2);
          split; [apply (child_steps t pa lim c2 chs2 log2 k2 j p2 h2 p2' h2' Hj2 Hrun)|split; [exact Hm'|apply sim_fork; assumption]]
        end.
      + (* slot *)
        match goal with Hj : chs1 !! ?j = Some (Waiting, ?p), Hlim : lim = 0 \/ _ |- _ =>
          destruct (same_status chs1 chs2 j _ _ Hst Hj) as (p2 & Hj2);
          destruct (sim_update chs1 chs2 j Running p p2 Hst Hch (Hch j _ _ _ _ Hj Hj2)) as [Hst' Hch'];
          exists (OSlot t pa j :: h2), (Fork t pa lim c2 (<[j := (Running, p2)]> chs2) log2 k2);
          split; [apply rtc_once, cs_prog; [apply ps_slot; [exact Hj2|rewrite <- (same_active chs1 chs2 Hst); exact Hlim]|exact I]|];
          split; [apply m_both; [apply M_slot|exact Hfair|exact Hm]|apply sim_fork; assumption]
        end.
      + (* give up *)
        match goal with Hj : chs1 !! ?j = Some (Waiting, ?p), Hlim : lim <> 0 |- _ =>
          destruct (same_status chs1 chs2 j _ _ Hst Hj) as (p2 & Hj2);
          destruct (sim_update chs1 chs2 j Skipped p p2 Hst Hch (Hch j _ _ _ _ Hj Hj2)) as [Hst' Hch'];
          exists (OGiveUp t pa j c2 :: h2), (Fork t pa lim c2 (<[j := (Skipped, p2)]> chs2) log2 k2);
          split; [apply rtc_once, cs_prog; [apply ps_giveup; assumption|exact (C_cancelled h1 h2 c1 c2 Hm HC Hal)]|];
          split; [apply m_both; [apply M_giveup; exact HC|exact Hfair|exact Hm]|apply sim_fork; assumption]
        end.
      + (* return *)
        match goal with Hj : chs1 !! ?j = Some (Running, Ret ?r) |- _ =>
          destruct (same_status chs1 chs2 j _ _ Hst Hj) as (p2 & Hj2);
          destruct (sim_returned r p2 h1 h2 (Hch j _ _ _ _ Hj Hj2) Hm) as (h2' & r2 & Hrun & Hm' & HO);
          destruct (sim_update chs1 chs2 j Reported (Ret r) (Ret r2) Hst Hch (sim_ret r r2 HO)) as [Hst' Hch'];
          assert (Hlog' : logs (log ++ [(j, r)]) (log2 ++ [(j, r2)])) by (apply Forall2_app; [exact Hlog|constructor; [split; [reflexivity|exact HO]|constructor]]);
          exists (OReturn t pa j r2 :: h2'), (Fork t pa lim c2 (<[j := (Reported, Ret r2)]> chs2) (log2 ++ [(j, r2)]) k2);
          split; [|split; [apply m_both; [apply M_return; exact HO|exact Hfair|exact Hm']|apply sim_fork; assumption]];
          eapply rtc_r; [apply (child_steps t pa lim c2 chs2 log2 k2 j p2 h2 (Ret r2) h2' Hj2 Hrun)|];
          apply cs_prog; [|exact I];
          rewrite <- (list_insert_insert chs2 j (Reported, Ret r2) (Running, Ret r2));
          apply ps_return; apply list_lookup_insert; eapply lookup_lt_Some; exact Hj2
        end.
      + (* free *)
        match goal with Hj : chs1 !! ?j = Some (Reported, ?p) |- _ =>
          destruct (same_status chs1 chs2 j _ _ Hst Hj) as (p2 & Hj2);
          destruct (sim_update chs1 chs2 j Released p p2 Hst Hch (Hch j _ _ _ _ Hj Hj2)) as [Hst' Hch'];
          exists (OFree t pa j :: h2), (Fork t pa lim c2 (<[j := (Released, p2)]> chs2) log2 k2);
          split; [apply rtc_once, cs_prog; [apply ps_free; exact Hj2|exact I]|];
          split; [apply m_both; [apply M_free|exact Hfair|exact Hm]|apply sim_fork; assumption]
        end.
      + (* join *)
        exists (OJoin t pa :: h2), (k2 log2).
        split; [apply rtc_once, cs_prog; [apply ps_join; eapply same_finished; eassumption|exact I]|].
        split; [apply m_both; [apply M_join|exact Hfair|exact Hm]|apply Hk; exact Hlog].
  Qed.

  (** Whatever the first program does, the second can do the like. *)
  Lemma sim_run p1 p2 h1 p1' : sim p1 p2 -> rtc (cstep g1) ([], p1) (h1, p1') -> Forall fair h1 ->
    exists h2 p2', rtc (cstep g2) ([], p2) (h2, p2') /\ matched h1 h2 /\ sim p1' p2'.
  Proof.
    intros H0 Hrun.
    enough (G : forall s, rtc (cstep g1) ([], p1) s -> Forall fair s.1 ->
              exists h2 p2', rtc (cstep g2) ([], p2) (h2, p2') /\ matched s.1 h2 /\ sim s.2 p2') by exact (G _ Hrun).
    clear h1 p1' Hrun.
    apply (rtc_ind_r (fun s => Forall fair s.1 -> exists h2 p2', rtc (cstep g2) ([], p2) (h2, p2') /\ matched s.1 h2 /\ sim s.2 p2')).
    - intros _. exists [], p2. split; [reflexivity|]. split; [constructor|exact H0].
    - intros [h p] [h1 p1'] Hrun Hstep IH Hf. cbn in IH, Hf |- *. 
      inversion Hstep; subst.
      + apply Forall_cons in Hf as [Hf0 Hf]. destruct (IH Hf) as (h2 & p2' & Hrun2 & Hm & Hs2).
        match goal with Hp : pstep p _ _, Ha : allowed _ _ _ |- _ => destruct (sim_step p p2' _ _ h h2 Hs2 Hp Hf0 Ha Hm) as (h3 & p3 & Hrun3 & Hm3 & Hs3) end.
        exists h3, p3. split; [etrans; eassumption|]. split; assumption.
      + apply Forall_cons in Hf as [Hf0 Hf]. destruct (IH Hf) as (h2 & p2' & Hrun2 & Hm & Hs2).
        eexists (OCancel _ :: h2), p2'. split; [eapply rtc_r; [exact Hrun2|apply cs_cancel]|].
        split; [apply m_both; [apply M_cancel; exact Hf0|exact Hf0|exact Hm]|exact Hs2].
  Qed.
  Lemma sim_run_end p1 p2 h1 r : sim p1 p2 -> rtc (cstep g1) ([], p1) (h1, Ret r) -> Forall fair h1 ->
    exists h2 r2, rtc (cstep g2) ([], p2) (h2, Ret r2) /\ matched h1 h2 /\ O r r2.
  Proof.
    intros H0 Hrun Hf. destruct (sim_run p1 p2 h1 (Ret r) H0 Hrun Hf) as (h2 & p2' & Hrun2 & Hm & Hs).
    destruct (sim_returned r p2' h1 h2 Hs Hm) as (h3 & r2 & Hrun3 & Hm3).
    exists h3, r2. split; [etrans; eassumption|exact Hm3].
  Qed.

  (** Sequences of calls. *)
  Lemma sim_bind p1 p2 f1 f2 : sim p1 p2 -> (forall r1 r2, O r1 r2 -> sim (f1 r1) (f2 r2)) -> sim (bind p1 f1) (bind p2 f2).
  Proof.
    intros H Hf. induction H as [r r2 HO|e1 k1 e2 k2 R Ha Hk IH|e k p Hq Hk IH|e k p P Hq Hk IH|t pa lim c1 c2 chs1 chs2 log log2 k1 k2 HC Hst Hlog Hch IH Hk IHk]; cbn.
    - apply Hf. exact HO.
    - eapply sim_vis; [exact Ha|exact IH].
    - apply sim_left; assumption.
    - eapply sim_right; [exact Hq|exact IH].
    - apply sim_fork; assumption.
  Qed.
  (** Results that correspond are both errors or neither. *)
  Definition kept_by_wrap (w : rerr -> rerr) : Prop :=
    forall r1 r2, O r1 r2 -> match r1, r2 with None, None => True | Some e1, Some e2 => O (Some (w e1)) (Some (w e2)) | _, _ => False end.
  Lemma sim_and_then p1 p2 w q1 q2 : kept_by_wrap w -> sim p1 p2 -> sim q1 q2 -> sim (and_then p1 w q1) (and_then p2 w q2).
  Proof.
    intros Hw Hp Hq. apply sim_bind; [exact Hp|]. intros r1 r2 HO. specialize (Hw r1 r2 HO).
    destruct r1, r2; try contradiction Hw; [apply sim_ret; exact Hw|exact Hq].
  Qed.
End Sim.
