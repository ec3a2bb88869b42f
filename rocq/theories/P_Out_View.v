(** Theorems about the displays of parallel blocks: C41. *)
From Verif Require Import Base Utf8_Model Utf8_Spec Utf8_Proof Out_Model Out_Spec Out_Proof Out_View Out_Sent.

(** The state of a display of [n] items that keeps [max] lines, after [ms]. *)
Definition after (n max : nat) (ms : list msg) (k : str) : option item := v_items (handle_all (new_display n max) ms) !! k.

(** After any messages at all. *)
Theorem C41_latest_lines n max ms k it : after n max ms k = Some it -> latest max (outputs k (since (restarts k) ms)) (i_lines it).
Proof. intros H. apply (records n max ms k it H). Qed.
Theorem C41_status n max ms k it : after n max ms k = Some it ->
  (i_started it = true <-> MStart k ∈ since (registers k) ms) /\
  (i_done it = true <-> is_Some (last_done k (since (registers k) ms))) /\
  i_err it = match last_done k (since (registers k) ms) with Some e => e | None => None end.
Proof. intros H. apply (records n max ms k it H). Qed.

(** After orderly messages: which items there are, and that a message changes only
    the items it is about. *)
Theorem C41_which_items n max ms k : orderly (roots n) ms ->
  is_Some (after n max ms k) <->
  (exists i, i < n /\ k = item_key i) \/ exists pre p post, ms = pre ++ MRegister k p :: post /\ forall a, MClear a ∈ post -> ~ below a k.
Proof.
  intros Ho. destruct (shape_all _ _ _ (shape_new n max) Ho) as [_ HP]. unfold after. rewrite <- HP, there_spec, roots_spec. split.
  - intros [[H _]|H]; [left; exact H|right; exact H].
  - intros [H|H]; [left; split; [exact H|]|right; exact H]. intros a _ [r E]. destruct H as (i & _ & ->). apply (itoa_no_dot i). unfold item_key in E. rewrite E. apply elem_of_app. right. left.
Qed.
Theorem C41_only_its_own n max ms m k : orderly (roots n) (ms ++ [m]) -> ~ concerns k m -> after n max (ms ++ [m]) k = after n max ms k.
Proof.
  intros Ho Hm. apply orderly_app in Ho as [Ho _]. destruct (shape_all _ _ _ (shape_new n max) Ho) as [Hc _]. unfold after. rewrite handle_all_snoc. set (v := handle_all _ _) in *. clearbody v.
  destruct m as [key parent|key|key line|key e|key| |]; cbn [concerns] in Hm; try reflexivity.
  - cbn [handle]. assert (H1 : <[key := fresh]> (v_items v) !! k = v_items v !! k) by (apply lookup_insert_ne; tauto). destruct parent as [|pc pr]; [exact H1|]. destruct (_ !! (pc :: pr)) as [p|]; cbn [v_items]; [rewrite lookup_insert_ne by tauto|]; exact H1.
  - cbn [handle]. destruct (v_items v !! key); cbn [v_items]; [apply lookup_insert_ne; exact Hm|reflexivity].
  - cbn [handle]. destruct (v_items v !! key); cbn [v_items]; [apply lookup_insert_ne; exact Hm|reflexivity].
  - cbn [handle]. destruct (v_items v !! key); cbn [v_items]; [apply lookup_insert_ne; exact Hm|reflexivity].
  - rewrite clear_lookup by exact Hc. destruct (belowb key k) eqn:E; [apply belowb_spec in E; tauto|]. rewrite decide_False; [reflexivity|]. intros ->. tauto.
Qed.

(** What blocks send is orderly, and everything sent for an item finds it there,
    however the goroutines are mixed. *)
Theorem C41_nothing_is_missed ts ms pre m post k max : run_msgs ts ms -> ms = pre ++ m :: post ->
  (exists line, m = MOutput k line) \/ m = MStart k \/ (exists e, m = MDone k e) -> is_Some (after (length ts) max pre k).
Proof.
  intros Hr E Hm. destruct (run_good _ _ Hr) as ([Ho Hh] & _ & _). rewrite E in Ho, Hh. apply orderly_app in Ho as [Ho _]. apply heard_app in Hh as [_ [Hh _]].
  destruct (shape_all _ _ _ (shape_new _ max) Ho) as [_ HP]. apply HP. destruct Hm as [[line ->] | [->|[e ->]]]; exact Hh.
Qed.
Theorem C41_orderly ts ms : run_msgs ts ms -> orderly (roots (length ts)) ms.
Proof. intros Hr. apply (run_good _ _ Hr). Qed.

Lemma mix_elem ts ms i t m : mix ts ms -> ts !! i = Some t -> m ∈ t -> m ∈ ms.
Proof.
  intros Hm. revert i t. induction Hm as [ts Hnil|ts j m' u ms Hj Hm IH]; intros i t Hi Hin.
  - rewrite Forall_lookup in Hnil. rewrite (Hnil _ _ Hi) in Hin. apply elem_of_nil in Hin as [].
  - destruct (decide (j = i)) as [->|Hne].
    + rewrite Hj in Hi. injection Hi as <-. apply elem_of_cons in Hin as [->|Hin]; [left|right]. apply (IH i u); [apply list_lookup_insert; eapply lookup_lt_Some; exact Hj|exact Hin].
    + right. apply (IH i t); [rewrite list_lookup_insert_ne by exact Hne; exact Hi|exact Hin].
Qed.
Lemma last_done_elem k ms e : MDone k e ∈ ms -> is_Some (last_done k ms).
Proof.
  induction ms as [|m ms IH]; intros H; [apply elem_of_nil in H as []|]. apply elem_of_cons in H as [<-|H]; [simpl; destruct (last_done k ms); [eauto|]; rewrite decide_True by reflexivity; eauto|].
  destruct (IH H) as [x Hx]. destruct m; simpl; rewrite ?Hx; eauto.
Qed.

(** At the end of a run exactly the items of the outermost block are there, all of
    them done, and each shows the last lines of its own goroutine. *)
Theorem C41_at_the_end ts ms max k : run_msgs ts ms ->
  (is_Some (after (length ts) max ms k) <-> exists i, i < length ts /\ k = item_key i) /\
  forall i t it, ts !! i = Some t -> after (length ts) max ms (item_key i) = Some it ->
    i_done it = true /\ latest max (outputs (item_key i) (since (restarts (item_key i)) t)) (i_lines it).
Proof.
  intros Hr. pose proof (run_good _ _ Hr) as ([Ho _] & Hl & Ht). split.
  - destruct (shape_all _ _ _ (shape_new _ max) Ho) as [_ HP]. unfold after. rewrite <- HP, Ht. apply roots_spec.
  - intros i t it Hi Hit. split.
    + apply (C41_status _ _ _ _ _ Hit).
      assert (Hd : exists e, MDone (item_key i) e ∈ t). { destruct Hr as [Hts _]. pose proof (Hts _ _ Hi) as H. inversion H; subst; eexists; [left|]. right. apply elem_of_app. right. left. }
      destruct Hd as [e Hd]. destruct Hr as [_ (ms0 & Hmix & ->)]. rewrite since_none.
      * apply (last_done_elem _ _ e). apply elem_of_app. left. exact (mix_elem _ _ _ _ _ Hmix Hi Hd).
      * rewrite existsb_app. simpl. rewrite orb_false_r. destruct (existsb (registers (item_key i)) ms0) eqn:E; [|reflexivity]. exfalso. apply existsb_exists in E as (m & Hm & E). apply elem_of_list_In in Hm.
        assert (Hall : Forall (fun m => exists j, local1 (item_key j) m) ms0).
        { clear -Hmix Hl. revert Hl. induction Hmix as [|ts j m u ms Hj Hm IH]; intros Hl; [constructor|]. pose proof (Hl _ _ Hj) as H. inversion H as [|? ? H1 H2]; subst. constructor; [eauto|]. apply IH. intros x v Hx.
          destruct (decide (j = x)) as [<-|Hne]; [rewrite list_lookup_insert in Hx by (eapply lookup_lt_Some; exact Hj); injection Hx as <-; exact H2|rewrite list_lookup_insert_ne in Hx by exact Hne; exact (Hl _ _ Hx)]. }
        rewrite Forall_forall in Hall. destruct (Hall _ Hm) as [j Hj]. destruct m; try discriminate E. simpl in E, Hj. apply bool_decide_eq_true in E as ->. destruct Hj as (_ & [r Er] & _).
        apply (itoa_no_dot i). unfold item_key in Er. rewrite Er. apply elem_of_app. right. left.
    + pose proof (C41_latest_lines _ _ _ _ _ Hit) as H. rewrite (run_tells ts ms i t (item_key i) Hr Hi (or_introl eq_refl)) in H. exact H.
Qed.

(** Two items; the first prints, runs a block of two items and prints again, while
    the second prints. *)
Definition t0 : list msg :=
  let k := lit "0" in
  MStart k :: ([MOutput k (lit "a")] ++ map (fun i => MRegister (child k i) k) (seq 0 2) ++
    [MStart (lit "0.1"); MStart (lit "0.0"); MOutput (lit "0.1") (lit "x"); MOutput (lit "0.0") (lit "y"); MDone (lit "0.0") None; MDone (lit "0.1") (Some (lit "bad"))] ++
    MClear k :: [MOutput k (lit "b"); MOutput k (lit "c"); MOutput k (lit "d")]) ++ [MDone k None].
Definition t1 : list msg := [MStart (lit "1"); MOutput (lit "1") (lit "z"); MDone (lit "1") (Some (lit "cancelled"))].
Example C41_item_met : item_msgs (item_key 0) t0 /\ item_msgs (item_key 1) t1.
Proof.
  split.
  - change (item_key 0) with (lit "0"). apply (im_run (lit "0") ([MOutput (lit "0") (lit "a")] ++ _ ++ _ ++ MClear (lit "0") :: _) None). apply bm_line.
    apply (bm_block (lit "0") [[MStart (lit "0.0"); MOutput (lit "0.0") (lit "y"); MDone (lit "0.0") None]; [MStart (lit "0.1"); MOutput (lit "0.1") (lit "x"); MDone (lit "0.1") (Some (lit "bad"))]]).
    + apply ims_cons; [apply (im_run _ [_] None), bm_line, bm_nil|]. apply ims_cons; [|apply ims_nil]. apply (im_run _ [_]), bm_line, bm_nil.
    + (eapply (mix_step _ 1); [reflexivity|simpl]). (eapply (mix_step _ 0); [reflexivity|simpl]). (eapply (mix_step _ 1); [reflexivity|simpl]). do 2 (eapply (mix_step _ 0); [reflexivity|simpl]). (eapply (mix_step _ 1); [reflexivity|simpl]). apply mix_done. repeat constructor.
    + repeat apply bm_line. apply bm_nil.
  - change (item_key 1) with (lit "1"). apply (im_run (lit "1") [MOutput (lit "1") (lit "z")]). apply bm_line, bm_nil.
Qed.
Definition both : list msg := firstn 5 t0 ++ firstn 2 t1 ++ skipn 5 t0 ++ skipn 2 t1 ++ [MAllDone].
Example C41_met : run_msgs [t0; t1] both /\ after 2 2 both (lit "0") = Some (Item [lit "c"; lit "d"] true true None []) /\ after 2 2 both (lit "1") = Some (Item [lit "z"] true true (Some (lit "cancelled")) []) /\ after 2 2 both (lit "0.1") = None /\
  after 2 2 (firstn 11 both) (lit "0.1") = Some (Item [lit "x"] true false None []) /\ after 2 2 (firstn 11 both) (lit "0") = Some (Item [] true false None [lit "0.0"; lit "0.1"]).
Proof.
  split; [|repeat split; vm_compute; reflexivity]. split.
  - intros [|[|i]] t H; [injection H as <-; apply C41_item_met|injection H as <-; apply C41_item_met|discriminate H].
  - eexists. split; [|unfold both; rewrite !app_assoc; reflexivity]. rewrite <- !app_assoc.
    do 5 (eapply (mix_step _ 0); [reflexivity|simpl]). do 2 (eapply (mix_step _ 1); [reflexivity|simpl]). do 10 (eapply (mix_step _ 0); [reflexivity|simpl]). (eapply (mix_step _ 1); [reflexivity|simpl]). apply mix_done. repeat constructor.
Qed.

Print Assumptions C41_latest_lines.
Print Assumptions C41_status.
Print Assumptions C41_which_items.
Print Assumptions C41_only_its_own.
Print Assumptions C41_nothing_is_missed.
Print Assumptions C41_orderly.
Print Assumptions C41_at_the_end.
