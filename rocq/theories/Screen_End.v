(** When a run is over, all items of blocks have returned. *)
From Verif Require Import Base Interp_Model Cond_Model Types_Model Path_Model Run_Model Run_Spec Run_Logic Run_Inv Run_Proof Run_Facts P_Run P_Run_Cmd.
From Verif Require Import Dest_Spec Alone_Spec Alone_Proof.

(** A goroutine of an item of a block, whose command is (or was) [x], is not over. *)
Inductive held : proc_info -> prog -> Prop :=
| hd_here x t i lim c chs log k j q : x_task x = t -> x_path x = [i; j] -> chs !! j = Some (Running, q) -> held x (Fork t [i] lim c chs log k)
| hd_in x t pa lim c chs log k j q : chs !! j = Some (Running, q) -> held x q -> held x (Fork t pa lim c chs log k).
Definition held_view (x : proc_info) (p : prog) : Prop :=
  match p with
  | Ret _ | Vis _ _ => False
  | Fork t pa _ _ chs _ _ => exists j q, chs !! j = Some (Running, q) /\ ((exists i, x_task x = t /\ pa = [i] /\ x_path x = [i; j]) \/ held x q)
  end.
Lemma held_view_of x p : held x p -> held_view x p.
Proof. destruct 1; simpl; eauto 10. Qed.
Lemma view_held x t pa lim c chs log k : held_view x (Fork t pa lim c chs log k) -> held x (Fork t pa lim c chs log k).
Proof. intros (j & q & Hj & [(i & E1 & -> & E2)|Hq]); [eapply hd_here; eassumption|eapply hd_in; eassumption]. Qed.

Lemma held_step p ev p' : pstep p ev p' -> forall x, held x p -> held x p' \/ exists i j r, ev = OReturn (x_task x) [i] j r /\ x_path x = [i; j].
Proof.
  assert (Hne : forall x t pa lim c chs log k lim' c' log' k' j y, (forall q, chs !! j = Some (Running, q) -> False) -> held x (Fork t pa lim c chs log k) -> held x (Fork t pa lim' c' (<[j := y]> chs) log' k')).
  { intros x t pa lim c chs log k lim' c' log' k' j y Hj Hh. apply held_view_of in Hh as (j' & q & Hj' & H). apply view_held. exists j', q. split; [|exact H].
    rewrite list_lookup_insert_ne; [exact Hj'|]. intros <-. exact (Hj q Hj'). }
  induction 1; intros x Hh; try (left; eapply Hne; [|exact Hh]; congruence).
  - apply held_view_of in Hh. destruct Hh.
  - apply held_view_of in Hh as (j' & q & Hj & Hq). destruct (decide (j' = j)) as [->|Hn].
    + rewrite H in Hj. injection Hj as <-. assert (Hl : j < length chs) by (apply lookup_lt_Some in H; exact H). destruct Hq as [Hq|Hq].
      * left. apply view_held. eexists j, _. split; [apply list_lookup_insert; exact Hl|]. left. exact Hq.
      * destruct (IHpstep x Hq) as [Hb|Hb]; [left|right; exact Hb]. apply view_held. eexists j, _. split; [apply list_lookup_insert; exact Hl|]. right. exact Hb.
    + left. apply view_held. exists j', q. split; [rewrite list_lookup_insert_ne by congruence; exact Hj|exact Hq].
  - apply held_view_of in Hh as (j' & q & Hj & Hq). destruct (decide (j' = j)) as [->|Hn].
    + rewrite H in Hj. injection Hj as <-. destruct Hq as [(i & E1 & -> & E2)|Hq]; [right; exists i, j, r; rewrite E1; auto|]. apply held_view_of in Hq. destruct Hq.
    + left. apply view_held. exists j', q. split; [rewrite list_lookup_insert_ne by congruence; exact Hj|exact Hq].
  - apply held_view_of in Hh as (j' & q & Hj & Hq). rewrite Forall_lookup in H. destruct (H _ _ Hj) as [E|E]; discriminate E.
Qed.
Lemma start_held p ev p' : pstep p ev p' -> forall F w x i j, st F w p -> ev = OStart x true -> x_path x = [i; j] ->
  held x p' \/ exists w', w = (x_task x, i, j) :: w'.
Proof.
  induction 1; intros F w x i1 j1 Hs E Ep; try discriminate E; apply st_view_of in Hs; simpl in Hs.
  - destruct e; try discriminate E. simpl in E. injection E as -> ->. destruct Hs as (Hp & _). right. exists (around (x_scope x)). rewrite <- Hp. unfold place. rewrite Ep. reflexivity.
  - destruct Hs as (i & s & -> & _ & _ & Hc & Hk). assert (Hl : j < length chs) by (apply lookup_lt_Some in H; exact H). left. apply view_held. eexists j, _. split; [apply list_lookup_insert; exact Hl|].
    destruct (IHpstep _ _ x i1 j1 (Hc F j _ (grows_refl F) H) E Ep) as [Hh|(w' & E')]; [right; exact Hh|]. injection E' as E1 E2 E3 _. left. exists i. rewrite Ep, E2, E3. auto.
Qed.

Section Over.
  Context (k : config) (tasks : taskmap) (root : str) (Hkeyed : keyed tasks).
  Notation run_of := (run_of k tasks root).
  Lemma held_run h p : run_of h p -> forall x i j, OStart x true ∈ h -> x_path x = [i; j] -> held x p \/ exists r, OReturn (x_task x) [i] j r ∈ h.
  Proof.
    intros Hr. cut (run_of (h, p).1 (h, p).2 /\ forall x i j, OStart x true ∈ (h, p).1 -> x_path x = [i; j] -> held x (h, p).2 \/ exists r, OReturn (x_task x) [i] j r ∈ (h, p).1); [intros [_ H]; exact H|].
    unfold run_of in Hr. revert Hr. generalize (h, p). clear h p.
    apply (rtc_ind_r (fun s => run_of s.1 s.2 /\ forall x i j, OStart x true ∈ s.1 -> x_path x = [i; j] -> held x s.2 \/ exists r, OReturn (x_task x) [i] j r ∈ s.1)).
    - split; [apply rtc_refl|]. intros x i j Hx. inversion Hx.
    - intros c1 c2 _ Hs [Hr IH]. destruct Hs as [h q ev p' Hp Ha|h q i0]; simpl in *.
      + split; [eapply rtc_r; [exact Hr|constructor; assumption]|]. intros x i j Hx Ep. destruct (inv_run k tasks root Hkeyed h q Hr) as (Hst & _). apply elem_of_cons in Hx as [Hx|Hx].
        * destruct (start_held _ _ _ Hp _ _ x i j Hst (eq_sym Hx) Ep) as [H|(w' & E)]; [left; exact H|discriminate E].
        * destruct (IH x i j Hx Ep) as [H|[r H]]; [|right; exists r; right; exact H]. destruct (held_step _ _ _ Hp x H) as [H'|(i' & j' & r & -> & E)]; [left; exact H'|]. rewrite Ep in E. injection E as <- <-. right. exists r. left.
      + split; [eapply rtc_r; [exact Hr|constructor 2]|]. intros x i j Hx Ep. apply elem_of_cons in Hx as [Hx|Hx]; [discriminate Hx|]. destruct (IH x i j Hx Ep) as [H|[r H]]; [left; exact H|right; exists r; right; exact H].
  Qed.
  Lemma over_returned h r x i j : run_of h (Ret r) -> OStart x true ∈ h -> x_path x = [i; j] -> exists r', OReturn (x_task x) [i] j r' ∈ h.
  Proof. intros Hr Hx Ep. destruct (held_run h _ Hr x i j Hx Ep) as [H|H]; [|exact H]. apply held_view_of in H. destruct H. Qed.
  Lemma over_ended h r x : run_of h (Ret r) -> OStart x true ∈ h -> exists ok, OEnd (x_task x) (x_path x) ok ∈ h.
  Proof.
    intros Hr Hx. destruct (existsb (fun ev => match ev with OEnd T pa _ => bool_decide (T = x_task x) && bool_decide (pa = x_path x) | _ => false end) h) eqn:E.
    - apply existsb_exists in E as (ev & H1 & H2). destruct ev; try discriminate H2. apply andb_prop in H2 as [H2 H3]. apply bool_decide_eq_true_1 in H2, H3. subst. exists ok. apply elem_of_list_In. exact H1.
    - exfalso. destruct (inv_run k tasks root Hkeyed h _ Hr) as (_ & Hb & _). apply elem_of_list_split in Hx as (h2 & h1 & Eh).
      assert (H : busy [] x (Ret r)); [|apply busy_view_of in H; exact H]. apply (Hb x h2 h1 Eh). intros ok Hok.
      assert (Et : existsb (fun ev => match ev with OEnd T pa _ => bool_decide (T = x_task x) && bool_decide (pa = x_path x) | _ => false end) h = true); [|congruence].
      apply existsb_exists. exists (OEnd (x_task x) (x_path x) ok). split; [apply elem_of_list_In; rewrite Eh; apply elem_of_app; left; exact Hok|]. rewrite !bool_decide_eq_true_2 by reflexivity. reflexivity.
  Qed.
End Over.
