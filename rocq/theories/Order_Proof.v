From Verif Require Import Base Utf8_Model Utf8_Spec Utf8_Proof Out_Model Out_Spec Out_Proof Nest_Model Nest_Spec Nest_Proof Nest_Hist Order_Model Order_Spec.

Section Order.
  Context (a : ansi_lib) (ws : list nwriter) (Hnest : nested ws) (Hone : one_block ws) (calls : list (list (nat * wop))) (before : nat -> nat -> Prop).

  (** Goroutine [t] writes to [c], at once or through others. *)
  Definition calls_under (t c : nat) : Prop := exists cs i o, calls !! t = Some cs /\ (i, o) ∈ cs /\ under ws i c.

  Record ord (s : nstate) (hist : nat -> history) (who : nat -> list nat) : Prop := Ord {
    r_len : forall j, length (who j) = length (hist j);
    r_source : forall j k t x o, who j !! k = Some t -> hist j !! k = Some (x, o) -> match x with Direct u => u = t | From c => calls_under t c end;
    r_idle : forall j t t', t ∈ who j -> before t' t -> idle s t';
    r_order : forall j k1 k2 t1 t2, k1 < k2 -> who j !! k1 = Some t1 -> who j !! k2 = Some t2 -> ~ before t2 t1;
    r_calls : forall t th i o, ns_threads s !! t = Some th -> (i, o) ∈ t_calls th -> exists cs, calls !! t = Some cs /\ (i, o) ∈ cs;
    r_stack : forall t th f, ns_threads s !! t = Some th -> f ∈ t_stack th -> calls_under t (f_writer f) }.

  Lemma ord_start : ord (nstart calls) (fun _ => []) (fun _ => []).
  Proof.
    assert (H : forall t th, map (fun cs => Thread cs []) calls !! t = Some th -> exists cs, calls !! t = Some cs /\ th = Thread cs []) by (intros t th H; rewrite list_lookup_fmap in H; apply fmap_Some in H as (cs & H & ->); eauto).
    split; simpl; try reflexivity.
    - intros j k t x o H0. discriminate H0.
    - intros j t t' H0. apply elem_of_nil in H0 as [].
    - intros j k1 k2 t1 t2 _ H0. discriminate H0.
    - intros t th i o Ht Hin. apply H in Ht as (cs & Hcs & ->). eauto.
    - intros t th f Ht Hf. apply H in Ht as (cs & _ & ->). apply elem_of_nil in Hf as [].
  Qed.
  Lemma idle_stays s s' t : nstep a ws s s' -> idle s t -> idle s' t.
  Proof.
    intros H (th & Ht & Hc & Hs). destruct H; cbn [ns_threads] in *; match goal with H : ?ts !! ?u = Some (Thread _ _) |- idle (NState _ _ _ (<[?u := ?y]> ?ts)) t => destruct (decide (u = t)) as [->|Hne]; [rewrite H in Ht; injection Ht as <-; first [discriminate Hc|discriminate Hs]|exists th; cbn [ns_threads]; rewrite list_lookup_insert_ne by exact Hne; auto] end.
  Qed.
  Lemma stays s s' : nstep a ws s s' -> (forall t th i o, ns_threads s !! t = Some th -> (i, o) ∈ t_calls th -> exists cs, calls !! t = Some cs /\ (i, o) ∈ cs) -> (forall t th f, ns_threads s !! t = Some th -> f ∈ t_stack th -> calls_under t (f_writer f)) ->
    (forall t th i o, ns_threads s' !! t = Some th -> (i, o) ∈ t_calls th -> exists cs, calls !! t = Some cs /\ (i, o) ∈ cs) /\ (forall t th f, ns_threads s' !! t = Some th -> f ∈ t_stack th -> calls_under t (f_writer f)).
  Proof.
    intros H H1 H2. destruct H as [m p d ts t i o cs w ls p' Ht Hw Hm Hc|m p d ts t cs i l pend rest w j w' ls p' Ht Hw Hd Hw' Hm Hc|m p d ts t cs i c l pend rest w e Ht Hw Hd|m p d ts t cs i pend rest w e Ht Hw Hd|m p d ts t cs i rest w Ht Hw]; cbn [ns_threads] in *.
    all: (split; [intros u th i0 o0 Hu Hin|intros u th f Hu Hf]; (destruct (lookup_upd _ _ _ _ _ _ Ht Hu) as [[-> ->]|[_ H]]; [|eauto])); cbn [t_calls t_stack] in *.
    all: try (eapply H1; [exact Ht|]; cbn [t_calls]; first [exact Hin|right; exact Hin]).
    - apply elem_of_list_singleton in Hf. subst f. destruct (H1 _ _ i o Ht ltac:(left)) as (cs' & Hcs' & Hin). exists cs', i, o. split; [exact Hcs'|]. split; [exact Hin|constructor].
    - apply elem_of_cons in Hf as [->|Hf].
      + destruct (H2 _ _ (Frame i (l :: pend)) Ht ltac:(left)) as (cs' & i' & o' & Hcs' & Hin & Hu'). exists cs', i', o'. split; [exact Hcs'|]. split; [exact Hin|]. econstructor; eauto.
      + apply elem_of_cons in Hf as [->|Hf]; [exact (H2 _ _ (Frame i (l :: pend)) Ht ltac:(left))|]. apply (H2 _ _ f Ht). right. exact Hf.
    - apply elem_of_cons in Hf as [->|Hf]; [exact (H2 _ _ (Frame i ((c :: l) :: pend)) Ht ltac:(left))|]. apply (H2 _ _ f Ht). right. exact Hf.
    - apply elem_of_cons in Hf as [->|Hf]; [exact (H2 _ _ (Frame i ([] :: pend)) Ht ltac:(left))|]. apply (H2 _ _ f Ht). right. exact Hf.
    - apply (H2 _ _ f Ht). right. exact Hf.
  Qed.
  Lemma snoc_lookup {A} (l : list A) x k y : (l ++ [x]) !! k = Some y -> l !! k = Some y \/ (k = length l /\ y = x).
  Proof. intros H. apply lookup_app_Some in H as [H|[Hk H]]; [auto|]. right. destruct (k - length l) as [|n] eqn:E; [injection H as ->; split; [lia|reflexivity]|discriminate H]. Qed.

  Lemma ord_step s s' hist log pd sofar who : locks ws s -> inv a ws calls s hist log pd sofar -> ord s hist who -> ostep a ws before s s' ->
    exists hist' log' pd' sofar' who', inv a ws calls s' hist' log' pd' sofar' /\ ord s' hist' who'.
  Proof.
    intros Hl Hi [R1 R2 R3 R4 R5 R6] [Hs Hb]. destruct (inv_step_by a ws Hnest Hone calls s s' hist log pd sofar Hl Hi Hs) as (hist' & log' & pd' & sofar' & Hi' & Hcase). destruct (stays s s' Hs R5 R6) as [R5' R6'].
    assert (R3' : forall j t t', t ∈ who j -> before t' t -> idle s' t') by (intros; eapply idle_stays; [exact Hs|eauto]).
    destruct Hcase as [->|(t & j & x & o & -> & th & th' & Ht & Ht' & Hne & Hx)].
    - exists hist, log', pd', sofar', who. split; [exact Hi'|]. split; assumption.
    - exists (upd hist j (hist j ++ [(x, o)])), log', pd', sofar', (upd who j (who j ++ [t])). split; [exact Hi'|].
      assert (Hmove : moves s s' t) by (exists th, th'; auto).
      assert (Hact : ~ idle s t) by (intros (th0 & H0 & Hc0 & Hs0); assert (th0 = th) as -> by congruence; destruct x as [u|c]; [destruct Hx as [_ Hx]; rewrite Hc0 in Hx; apply elem_of_nil in Hx as []|destruct Hx as (f & w & Hf & _); rewrite Hs0 in Hf; apply elem_of_nil in Hf as []]).
      split; [| | | |exact R5'|exact R6'].
      + intros k. destruct (decide (k = j)) as [->|Hk]; [rewrite !upd_same, !app_length, R1; reflexivity|rewrite !upd_other by exact Hk; apply R1].
      + intros i k u y p Hw Hh. destruct (decide (i = j)) as [->|Hij]; [|rewrite !upd_other in * by exact Hij; eapply R2; eassumption]. rewrite !upd_same in *.
        apply snoc_lookup in Hw as [Hw|[Ek Eu]]; apply snoc_lookup in Hh as [Hh|[Ek' Eh]]; [eapply R2; eassumption| | |].
        * apply lookup_lt_Some in Hw. rewrite R1 in Hw. lia.
        * apply lookup_lt_Some in Hh. rewrite <- R1 in Hh. lia.
        * injection Eh as -> ->. subst u. destruct x as [u|c]; [apply Hx|]. destruct Hx as (f & w & Hf & <- & _). eapply R6; eassumption.
      + intros i u t' Hu Hbt. destruct (decide (i = j)) as [->|Hij]; [|rewrite upd_other in Hu by exact Hij; eauto]. rewrite upd_same in Hu. apply elem_of_app in Hu as [Hu|Hu]; [eauto|]. apply elem_of_list_singleton in Hu. subst u. eapply idle_stays; [exact Hs|]. eapply Hb; eassumption.
      + intros i k1 k2 t1 t2 Hk Hw1 Hw2. destruct (decide (i = j)) as [->|Hij]; [|rewrite !upd_other in * by exact Hij; eapply R4; eassumption]. rewrite !upd_same in *.
        apply snoc_lookup in Hw2 as [Hw2|[Ek2 ->]].
        * apply snoc_lookup in Hw1 as [Hw1|[Ek1 _]]; [eapply R4; eassumption|]. apply lookup_lt_Some in Hw2. lia.
        * apply snoc_lookup in Hw1 as [Hw1|[Ek1 _]]; [|lia]. intros Hbt. apply Hact. eapply R3; [eapply elem_of_list_lookup_2; exact Hw1|exact Hbt].
  Qed.
  Lemma ord_reach s : rtc (ostep a ws before) (nstart calls) s -> exists hist log pd sofar who, inv a ws calls s hist log pd sofar /\ ord s hist who.
  Proof.
    intros H. assert (Hb : locks ws s /\ exists hist log pd sofar who, inv a ws calls s hist log pd sofar /\ ord s hist who); [|apply Hb].
    refine (rtc_ind_r (fun x => locks ws x /\ exists hist log pd sofar who, inv a ws calls x hist log pd sofar /\ ord x hist who) (nstart calls) _ _ s H).
    - split; [apply locks_start|]. do 5 eexists. split; [apply inv_start|apply ord_start].
    - intros x y _ Hxy (Hl & hist & log & pd & sofar & who & Hi & Ho). split; [eapply locks_step; [exact Hnest|exact Hl|apply Hxy]|eapply ord_step; eassumption].
  Qed.
End Order.
