(** Theorems about drawing the displays of parallel blocks: C66 (tabs), C67 (grouped). *)
From Verif Require Import Base Types_Model Path_Model Cond_Model Utf8_Model Utf8_Spec Utf8_Proof Out_Model Out_Spec Out_Proof Out_View Out_Sent P_Out_View View_Model View_Spec View_Proof.

Lemma done_iff v ms : v_done (handle_all v ms) = true <-> v_done v = true \/ MAllDone ∈ ms.
Proof.
  revert v. induction ms as [|m ms IH]; intros v; [simpl; split; [auto|intros [H|H]; [exact H|apply elem_of_nil in H as []]]|]. change (handle_all v (m :: ms)) with (handle_all (handle v m) ms). rewrite IH, elem_of_cons.
  assert (Hm : v_done (handle v m) = true <-> v_done v = true \/ MAllDone = m) by (destruct m; simpl; repeat case_match; simpl; split; try tauto; try (intros [?|?]; [assumption|discriminate]); auto). rewrite Hm. tauto.
Qed.
Lemma cancelled_iff v ms : v_cancelled (handle_all v ms) = true <-> v_cancelled v = true \/ MCtrlC ∈ ms.
Proof.
  revert v. induction ms as [|m ms IH]; intros v; [simpl; split; [auto|intros [H|H]; [exact H|apply elem_of_nil in H as []]]|]. change (handle_all v (m :: ms)) with (handle_all (handle v m) ms). rewrite IH, elem_of_cons.
  assert (Hm : v_cancelled (handle v m) = true <-> v_cancelled v = true \/ MCtrlC = m) by (destruct m; simpl; repeat case_match; simpl; split; try tauto; try (intros [?|?]; [assumption|discriminate]); auto). rewrite Hm. tauto.
Qed.
Lemma registered_dot P ms k p : orderly P ms -> MRegister k p ∈ ms -> "."%char ∈ k.
Proof.
  intros Ho Hin. apply elem_of_list_split in Hin as (a & b & ->). apply orderly_app in Ho as [_ Ho]. simpl in Ho. destruct Ho as ([j ->] & _). apply elem_of_app. right. left.
Qed.
Lemma root_present n max ms k : orderly (roots n) ms -> k ∈ roots n -> is_Some (after n max ms k).
Proof. intros Ho Hk. apply C41_which_items; [exact Ho|]. left. apply roots_spec. exact Hk. Qed.
Lemma under_root n max ms j : orderly (roots n) ms -> is_Some (after n max ms j) -> exists k, k ∈ roots n /\ in_tree k j.
Proof.
  intros Ho. destruct (shape_all _ _ _ (shape_new n max) Ho) as [Hc _]. remember (length j) as w eqn:Ew. assert (Hw : length j <= w) by lia. clear Ew. revert j Hw. induction w as [|w IH]; intros j Hw [it Hj].
  - destruct j; [|simpl in Hw; lia]. apply (ex_intro (fun x => after n max ms [] = Some x)) in Hj. apply (C41_which_items n max ms [] Ho) in Hj as [(i & Hi & E)|(pre & p & post & E & _)].
    + exists (item_key i). split; [apply roots_spec; eauto|left; exact E].
    + exfalso. assert (Hin : MRegister [] p ∈ ms) by (rewrite E; apply elem_of_app; right; left). apply (registered_dot _ _ _ _ Ho) in Hin. apply elem_of_nil in Hin as [].
  - destruct (Hc _ _ Hj) as [[Hd|(p & i & itp & -> & Hp & _)] _].
    + apply (ex_intro (fun x => after n max ms j = Some x)) in Hj. apply (C41_which_items n max ms j Ho) in Hj as [(i & Hi & E)|(pre & p & post & E & _)].
      * exists (item_key i). split; [apply roots_spec; eauto|left; exact E].
      * exfalso. apply Hd. apply (registered_dot (roots n) ms _ p Ho). rewrite E. apply elem_of_app. right. left.
    + rewrite app_length in Hw. simpl in Hw. destruct (IH p ltac:(lia)) as (k & Hk & Ht); [eexists; exact Hp|]. exists k. split; [exact Hk|right].
      destruct Ht as [->|Ht]; [apply below_child|eapply below_trans; [exact Ht|apply below_child]].
Qed.

Section Views.
  Context (S : screen) (is_cancel : str -> bool) (label : str -> str).
  Notation rows := (grouped_rows S is_cancel label).
  Notation render := (render_item S is_cancel label).
  (** The grouped display of [n] items after [ms]. *)
  Definition shown (n : nat) (ms : list msg) : display := handle_all (new_display n grouped_max) ms.

  (** ** C67 *)
  Lemma grouped_walk n ms w : orderly (roots n) ms -> exists ls, Forall2 (walk (v_items (shown n ms))) (roots n) ls /\ heads (rows (shown n ms) w) = concat ls.
  Proof.
    intros Ho. unfold grouped_rows, shown. rewrite handle_all_roots. change (v_roots (new_display n grouped_max)) with (roots n). rewrite heads_concat, map_map. eexists. split; [|reflexivity].
    set (v := handle_all _ _). assert (Hc : closed (v_items v)) by apply (shape_all _ _ _ (shape_new n _) Ho). assert (Hf : full (v_items v)) by apply (full_all n grouped_max ms Ho).
    assert (Hp : Forall (fun k => is_Some (v_items v !! k)) (roots n)) by (apply Forall_forall; intros k Hk; apply (root_present n grouped_max ms k Ho Hk)).
    clear Ho. clearbody v. induction Hp as [|k ks Hk Hp IH]; [constructor|]. cbn [map]. constructor; [|exact IH]. apply render_walk; [exact Hc|exact Hf|exact Hk|]. pose proof (weight_size k (v_items v)). lia.
  Qed.

  (** Every item is named exactly once, and nothing else is. *)
  Theorem C67_every_item_once n ms w : orderly (roots n) ms ->
    NoDup (heads (rows (shown n ms) w)) /\ forall k, k ∈ heads (rows (shown n ms) w) <-> is_Some (after n grouped_max ms k).
  Proof.
    intros Ho. destruct (grouped_walk n ms w Ho) as (ls & HF & ->). set (m := v_items (shown n ms)) in *.
    assert (Hc : closed m) by apply (shape_all _ _ _ (shape_new n _) Ho). assert (Hf : full m) by apply (full_all n grouped_max ms Ho).
    assert (HG : Forall2 (fun c l => NoDup l /\ forall j, j ∈ l <-> in_tree c j /\ is_Some (m !! j)) (roots n) ls) by (eapply Forall2_impl; [exact HF|]; intros k l Hl; apply (walk_covers m Hc Hf k l Hl)).
    assert (Helem : forall R ls, Forall2 (fun c l => NoDup l /\ forall j, j ∈ l <-> in_tree c j /\ is_Some (m !! j)) R ls -> forall j, j ∈ concat ls <-> exists c, c ∈ R /\ in_tree c j /\ is_Some (m !! j)).
    { clear. intros R ls HG j. induction HG as [|c l cs ls [_ H] HG IHG]; cbn [concat].
      - split; [intros Hx; apply elem_of_nil in Hx as []|intros (c & Hx & _); apply elem_of_nil in Hx as []].
      - rewrite elem_of_app, H, IHG. split.
        + intros [Hx|(c' & Hin & Hx)]; [exists c; split; [left|exact Hx]|exists c'; split; [right; exact Hin|exact Hx]].
        + intros (c' & Hin & Hx). apply elem_of_cons in Hin as [->|Hin]; [left; exact Hx|right; eauto]. }
    split.
    - assert (Hap : ForallOrdPairs apart (roots n)).
      { unfold roots. clear. generalize 0 as a. induction n as [|n IH]; intros a; [constructor|]. cbn [seq map]. constructor; [|apply IH]. apply List.Forall_forall. intros x Hx. apply in_map_iff in Hx as (i & <- & Hi). apply in_seq in Hi. apply roots_apart. lia. }
      clear HF Ho. induction HG as [|c l cs ls' [HNl Hj] HG IHG]; [apply NoDup_nil_2|]. cbn [concat]. inversion Hap as [|? ? Ha Hap']; subst. apply NoDup_app. split; [exact HNl|]. split; [|auto].
      intros x Hx Hy. apply Hj in Hx as [Hx _]. apply (Helem _ _ HG) in Hy as (c' & Hin & Hy & _). apply elem_of_list_In in Hin. rewrite List.Forall_forall in Ha. exact (Ha _ Hin x Hx Hy).
    - intros k. rewrite (Helem _ _ HG). split; [intros (c & _ & _ & H); exact H|]. intros H. destruct (under_root n grouped_max ms k Ho H) as (r & Hr & Ht). exists r. split; [exact Hr|]. split; [exact Ht|exact H].
  Qed.
  (** From top to bottom: the items of the block in their order, each followed by those
      of the blocks it runs, in their order. *)
  Theorem C67_order n ms w : orderly (roots n) ms -> exists ls, Forall2 (walk (v_items (shown n ms))) (roots n) ls /\ heads (rows (shown n ms) w) = concat ls.
  Proof. apply grouped_walk. Qed.

  (** No row is wider than the terminal. *)
  Theorem C67_fits n ms w : cuts_well S -> (0 < w)%Z -> Forall (fun r => (s_width S (r_text r) <= w)%Z) (rows (shown n ms) w).
  Proof.
    intros Hcut Hw. unfold grouped_rows. induction (v_roots _) as [|k ks IH]; [constructor|]. cbn [map concat]. apply Forall_app. split; [apply render_width; assumption|exact IH].
  Qed.

  (** The rows about an item are those drawn for it. *)
  Lemma rows_keys : forall fuel v w k ind d, Forall (fun r => exists it, v_items v !! r_key r = Some it) (render fuel v w k ind d).
  Proof.
    induction fuel as [|fuel IH]; intros v w k ind d; [constructor|]. cbn [render_item]. destruct (v_items v !! k) as [it|] eqn:Hk; [|constructor].
    assert (HC : forall ind d cs, Forall (fun r => exists it, v_items v !! r_key r = Some it) (concat (map (fun ck => render fuel v w ck ind d) cs))).
    { intros ind' d' cs. induction cs as [|c cs IHc]; [constructor|]. cbn [map concat]. apply Forall_app. split; [apply IH|exact IHc]. }
    destruct d as [|d]; (constructor; [cbn [r_key]; eauto|]); [|apply HC]. apply Forall_app. split; [|constructor; [cbn [r_key]; eauto|constructor]].
    destruct (i_children it); [|apply HC]. apply Forall_app. split.
    - apply Forall_lookup. intros i r Hr. rewrite list_lookup_imap in Hr. apply fmap_Some in Hr as (l & _ & ->). cbn [r_key]. eauto.
    - match goal with |- context [if ?b then _ else _] => destruct b end; [|constructor]. apply Forall_forall. intros r Hr. apply elem_of_list_In, repeat_spec in Hr as ->. cbn [r_key]. eauto.
  Qed.
  Lemma rows_in_tree : forall fuel v w k ind d, closed (v_items v) -> Forall (fun r => in_tree k (r_key r)) (render fuel v w k ind d).
  Proof.
    induction fuel as [|fuel IH]; intros v w k ind d Hc; [constructor|]. cbn [render_item]. destruct (v_items v !! k) as [it|] eqn:Hk; [|constructor].
    assert (HC : forall ind d, Forall (fun r => in_tree k (r_key r)) (concat (map (fun ck => render fuel v w ck ind d) (i_children it)))).
    { intros ind' d'. assert (Hch : Forall (fun c => below k c) (i_children it)). { apply Forall_forall. intros c Hin. destruct (Hc _ _ Hk) as [_ H]. destruct (H _ Hin) as [i ->]. apply below_child. }
      induction Hch as [|c cs Hb Hch IHc]; [constructor|]. cbn [map concat]. apply Forall_app. split; [|exact IHc]. eapply Forall_impl; [apply IH; exact Hc|]. intros r [E|E]; cbn beta in *; right; [rewrite E; exact Hb|eapply below_trans; [exact Hb|exact E]]. }
    destruct d as [|d]; (constructor; [left; reflexivity|]); [|apply HC]. apply Forall_app. split; [|constructor; [left; reflexivity|constructor]].
    destruct (i_children it) as [|c0 cs0]; [|apply HC]. apply Forall_app. split.
    - apply Forall_lookup. intros i r Hr. rewrite list_lookup_imap in Hr. apply fmap_Some in Hr as (l & _ & ->). left. reflexivity.
    - match goal with |- context [if ?b then _ else _] => destruct b end; [|constructor]. apply Forall_forall. intros r Hr. apply elem_of_list_In, repeat_spec in Hr as ->. left. reflexivity.
  Qed.
  Lemma rows_of_none k rs : Forall (fun r => r_key r <> k) rs -> rows_of k rs = [].
  Proof. induction 1 as [|r rs Hr H IH]; [reflexivity|]. unfold rows_of in *. simpl. rewrite bool_decide_eq_false_2 by exact Hr. exact IH. Qed.
  Lemma rows_of_all k rs : Forall (fun r => r_key r = k) rs -> rows_of k rs = rs.
  Proof. induction 1 as [|r rs Hr H IH]; [reflexivity|]. unfold rows_of in *. simpl. rewrite bool_decide_eq_true_2 by exact Hr. f_equal. exact IH. Qed.
  Lemma rows_of_app k a b : rows_of k (a ++ b) = rows_of k a ++ rows_of k b.
  Proof. apply List.filter_app. Qed.
  Lemma rows_of_root n ms w i it : orderly (roots n) ms -> i < n -> after n grouped_max ms (item_key i) = Some it -> i_children it = [] ->
    rows_of (item_key i) (rows (shown n ms) w) = render 1 (shown n ms) w (item_key i) [] 0.
  Proof.
    intros Ho Hi Hk Hch. unfold grouped_rows, shown. rewrite handle_all_roots. change (v_roots (new_display n grouped_max)) with (roots n). set (v := handle_all _ _).
    assert (Hc : closed (v_items v)) by apply (shape_all _ _ _ (shape_new n _) Ho).
    unfold roots. replace n with (i + Datatypes.S (n - i - 1)) by lia. rewrite seq_app, !map_app, concat_app, rows_of_app. cbn [Nat.add seq map concat]. rewrite rows_of_app.
    assert (Hoff : forall js, ~ In i js -> rows_of (item_key i) (concat (map (fun k => render (Datatypes.S (size (v_items v))) v w k [] 0) (map item_key js))) = []).
    { intros js Hjs. apply rows_of_none. induction js as [|j js IH]; [constructor|]. cbn [map concat]. apply Forall_app. split; [|apply IH; intros H; apply Hjs; right; exact H].
      eapply Forall_impl; [apply (rows_in_tree _ v w _ [] 0 Hc)|]. intros r Hr E. cbn beta in Hr. rewrite E in Hr. apply (roots_apart i j) with (x := item_key i); [intros ->; apply Hjs; left; reflexivity|left; reflexivity|exact Hr]. }
    rewrite !Hoff by (intros Hin; apply in_seq in Hin; lia). rewrite app_nil_r, app_nil_l.
    unfold after in Hk. fold v in Hk. assert (E : forall fuel, render (Datatypes.S fuel) v w (item_key i) [] 0 = render 1 v w (item_key i) [] 0) by (intros fuel; cbn [render_item]; rewrite Hk, Hch; reflexivity).
    rewrite E. apply rows_of_all. cbn [render_item]. rewrite Hk, Hch. constructor; [reflexivity|]. apply Forall_app. split; [|repeat constructor]. apply Forall_app. split.
    - apply Forall_lookup. intros j r Hr. rewrite list_lookup_imap in Hr. apply fmap_Some in Hr as (l & _ & ->). reflexivity.
    - match goal with |- context [if ?b then _ else _] => destruct b end; [|constructor]. apply Forall_forall. intros r Hr. apply elem_of_list_In, repeat_spec in Hr as ->. reflexivity.
  Qed.
  Lemma line_rows_of k rs : line_rows k rs = List.filter (fun r => match r_kind r with KLine _ => true | _ => false end) (rows_of k rs).
  Proof. induction rs as [|r rs IH]; [reflexivity|]. unfold line_rows, rows_of in *. simpl. destruct (bool_decide _); simpl; [|exact IH]. destruct (r_kind r); rewrite IH; reflexivity. Qed.

  (** An item of the block that runs no block of its own shows its last five lines (all
      if there are fewer), in order; a line for which there is room is shown whole. *)
  Theorem C67_lines n ms w i it : orderly (roots n) ms -> i < n -> after n grouped_max ms (item_key i) = Some it -> i_children it = [] ->
    exists ls, latest 5 (outputs (item_key i) (since (restarts (item_key i)) ms)) ls /\
      Forall2 (fun r l => let side := s_style S StDim sg_side ++ lit "  " in
                 (s_width S side + s_width S l <= w)%Z -> (s_width S (side ++ l) <= w)%Z -> r_text r = side ++ l)
              (line_rows (item_key i) (rows (shown n ms) w)) ls.
  Proof.
    intros Ho Hi Hk Hch. exists (i_lines it). split; [apply (C41_latest_lines _ _ _ _ _ Hk)|]. rewrite line_rows_of, (rows_of_root n ms w i it Ho Hi Hk Hch). unfold after in Hk. cbn [render_item]. unfold shown. rewrite Hk, Hch. cbn [List.filter r_kind]. rewrite !List.filter_app. cbn [List.filter r_kind]. rewrite app_nil_r.
    match goal with |- context [List.filter ?f (if ?b then ?x else [])] => replace (List.filter f (if b then x else [])) with (@nil row) by (destruct b; [|reflexivity]; set (q := _ - _); clearbody q; induction q as [|q IHq]; [reflexivity|exact IHq]) end.
    rewrite app_nil_r.
    assert (Hg : forall (f : nat -> str -> row) ls, (forall m l, (exists x, r_kind (f m l) = KLine x) /\ r_text (f m l) = box_line S w (s_style S StDim sg_side ++ lit "  ") l) ->
      Forall2 (fun r l => let side := s_style S StDim sg_side ++ lit "  " in (s_width S side + s_width S l <= w)%Z -> (s_width S (side ++ l) <= w)%Z -> r_text r = side ++ l) (List.filter (fun r => match r_kind r with KLine _ => true | _ => false end) (imap f ls)) ls).
    { intros f ls. revert f. induction ls as [|l ls IH]; intros f Hf; [constructor|]. rewrite imap_cons. cbn [List.filter]. destruct (Hf 0 l) as [[x Hx] Ht]. rewrite Hx. constructor.
      - cbn zeta. intros H1 H2. rewrite Ht. unfold box_line, truncate_line. destruct (Z.ltb_spec (w - s_width S (s_style S StDim sg_side ++ lit "  ")) (s_width S l)); [lia|]. rewrite andb_false_r. destruct (Z.leb_spec (s_width S ((s_style S StDim sg_side ++ lit "  ") ++ l)) w); [|lia]. rewrite orb_true_r. reflexivity.
      - apply IH. intros m l'. apply (Hf (Datatypes.S m) l'). }
    apply Hg. intros m l. split; [eexists; reflexivity|reflexivity].
  Qed.
  (** Such an item takes at most seven rows, and always seven while it runs and has
      printed something, so that what is below does not move. *)
  Theorem C67_height n ms w i it : orderly (roots n) ms -> i < n -> after n grouped_max ms (item_key i) = Some it -> i_children it = [] ->
    length (rows_of (item_key i) (rows (shown n ms) w)) <= 7 /\
    (last_done (item_key i) (since (registers (item_key i)) ms) = None -> outputs (item_key i) (since (restarts (item_key i)) ms) <> [] -> length (rows_of (item_key i) (rows (shown n ms) w)) = 7).
  Proof.
    intros Ho Hi Hk Hch. rewrite (rows_of_root n ms w i it Ho Hi Hk Hch). pose proof (C41_latest_lines _ _ _ _ _ Hk) as (dr & Edr & _ & Hmax). pose proof (C41_status _ _ _ _ _ Hk) as (_ & Hd & _).
    destruct (Hmax ltac:(discriminate)) as [Hle Hfull]. unfold after in Hk. cbn [render_item]. unfold shown. rewrite Hk, Hch. cbn [length]. rewrite !app_length, imap_length. cbn [length].
    unfold grouped_max in *. destruct (i_done it) eqn:Ed; cbn [negb andb].
    - split; [simpl; lia|]. intros Hn. destruct (proj1 Hd eq_refl) as [x Hx]. congruence.
    - destruct (Nat.ltb_spec 0 (length (i_lines it))); cbn [andb].
      + destruct (Nat.ltb_spec (length (i_lines it)) 5); [rewrite repeat_length|simpl]; lia.
      + split; [simpl; lia|]. intros _ Hout. exfalso. destruct (i_lines it); [|simpl in *; lia]. rewrite app_nil_r in Edr. assert (Hx : dr <> []) by congruence. specialize (Hfull Hx). simpl in Hfull. lia.
  Qed.

  (** The mark of an item says how it stands. *)
  Lemma status_mark n max ms k it : after n max ms k = Some it ->
    let m := mark_of is_cancel (bool_decide (MCtrlC ∈ ms)) (bool_decide (MStart k ∈ since (registers k) ms)) (last_done k (since (registers k) ms)) in
    status_icon S is_cancel it (v_cancelled (handle_all (new_display n max) ms)) = s_style S (sign_style m) (sign m).
  Proof.
    intros Hk m. destruct (C41_status _ _ _ _ _ Hk) as (Hs & Hd & He). subst m. unfold status_icon, mark_of. rewrite He.
    assert (Ec : v_cancelled (handle_all (new_display n max) ms) = bool_decide (MCtrlC ∈ ms)).
    { apply eq_true_iff_eq. rewrite cancelled_iff, bool_decide_eq_true. simpl. split; [intros [H|H]; [discriminate|exact H]|auto]. }
    assert (Es : i_started it = bool_decide (MStart k ∈ since (registers k) ms)) by (apply eq_true_iff_eq; rewrite Hs, bool_decide_eq_true; reflexivity).
    rewrite Ec, Es. destruct (last_done k _) as [[e|]|].
    - rewrite (proj2 Hd) by eauto. destruct (is_cancel e); reflexivity.
    - rewrite (proj2 Hd) by eauto. reflexivity.
    - destruct (i_done it); [exfalso; destruct (proj1 Hd eq_refl) as [x Hx]; discriminate Hx|]. destruct (bool_decide (MCtrlC ∈ ms)); [reflexivity|]. destruct (bool_decide _); reflexivity.
  Qed.
  Theorem C67_mark n ms w i it : orderly (roots n) ms -> i < n -> after n grouped_max ms (item_key i) = Some it ->
    let k := item_key i in
    let m := mark_of is_cancel (bool_decide (MCtrlC ∈ ms)) (bool_decide (MStart k ∈ since (registers k) ms)) (last_done k (since (registers k) ms)) in
    let title := s_style S StDim sg_corner ++ lit " " ++ s_style S StTitle (label k) ++ lit " " ++ s_style S (sign_style m) (sign m) in
    (s_width S title <= w)%Z -> Row k KTitle title ∈ rows (shown n ms) w.
  Proof.
    intros Ho Hi Hk k m title Hw. unfold grouped_rows, shown. rewrite handle_all_roots. change (v_roots (new_display n grouped_max)) with (roots n).
    apply elem_of_list_In, in_concat. exists (render (Datatypes.S (size (v_items (shown n ms)))) (shown n ms) w k [] 0). split; [apply in_map_iff; exists k; split; [reflexivity|]; apply elem_of_list_In, roots_spec; eauto|].
    unfold shown. cbn [render_item]. unfold after in Hk. change (item_key i) with k in Hk. rewrite Hk. left. f_equal. cbn [app].
    rewrite (status_mark n grouped_max ms k it Hk). fold m. fold title. unfold truncate_line. destruct (Z.leb_spec (s_width S title) w); [|lia]. rewrite orb_true_r. reflexivity.
  Qed.

  (** An item inside another one has a single row: its mark, its name and, unless it has succeeded,
      the latest of its last five lines that is not blank, if there is room. *)
  (** The left margin of a row [d] blocks further in than the blocks of the outermost block's items. *)
  Definition margin (d : nat) : str := s_style S StDim sg_side ++ concat (repeat (lit "  ") (Datatypes.S d)).
  Lemma margin_next d : margin d ++ lit "  " = margin (Datatypes.S d).
  Proof.
    unfold margin. rewrite <- app_assoc. f_equal. induction d as [|d IH]; [reflexivity|]. change (concat (repeat (lit "  ") (Datatypes.S (Datatypes.S d)))) with (lit "  " ++ concat (repeat (lit "  ") (Datatypes.S d))) at 1.
    rewrite <- app_assoc, IH. reflexivity.
  Qed.
  Lemma short_rows : forall fuel v w k d, Forall (fun r => r_kind r = KShort -> exists it d', v_items v !! r_key r = Some it /\
    r_text r = compact_line S is_cancel label (v_cancelled v) w (r_key r) it (margin d')) (render fuel v w k (match d with O => [] | Datatypes.S d => margin d end) d).
  Proof.
    induction fuel as [|fuel IH]; intros v w k d; [constructor|]. cbn [render_item]. destruct (v_items v !! k) as [it|] eqn:Hk; [|constructor].
    assert (HC : forall d cs, Forall (fun r => r_kind r = KShort -> exists it d', v_items v !! r_key r = Some it /\
      r_text r = compact_line S is_cancel label (v_cancelled v) w (r_key r) it (margin d')) (concat (map (fun ck => render fuel v w ck (margin d) (Datatypes.S d)) cs))).
    { intros d' cs. induction cs as [|c cs IHc]; [constructor|]. cbn [map concat]. apply Forall_app. split; [apply (IH v w c (Datatypes.S d'))|exact IHc]. }
    destruct d as [|d]; constructor.
    - intros E. discriminate E.
    - apply Forall_app. split; [|constructor; [intros E; discriminate E|constructor]].
      destruct (i_children it) as [|c cs]; [|exact (HC 0 (c :: cs))]. apply Forall_app. split.
      + apply Forall_lookup. intros i r Hr E. rewrite list_lookup_imap in Hr. apply fmap_Some in Hr as (l & _ & ->). discriminate E.
      + match goal with |- context [if ?b then _ else _] => destruct b end; [|constructor]. apply Forall_forall. intros r Hr E. apply elem_of_list_In, repeat_spec in Hr as ->. discriminate E.
    - intros _. exists it, d. auto.
    - rewrite margin_next. apply HC.
  Qed.
  Lemma snippet_latest l before line after : l = before ++ line :: after -> blank line = false -> Forall (fun x => blank x = true) after -> snippet l = line.
  Proof.
    intros -> Hl Ha. unfold snippet. rewrite rev_app_distr. cbn [rev]. rewrite <- app_assoc, List.filter_app.
    assert (E : List.filter (fun x => negb (blank x)) (rev after) = []).
    { apply Forall_rev in Ha. induction Ha as [|x xs Hx Ha IH]; [reflexivity|]. cbn. rewrite Hx. exact IH. }
    rewrite E. cbn. rewrite Hl. reflexivity.
  Qed.
  Lemma snippet_blank l : Forall (fun x => blank x = true) l -> snippet l = [].
  Proof.
    intros Ha. unfold snippet. apply Forall_rev in Ha. destruct Ha as [|x xs Hx Ha]; [reflexivity|].
    assert (E : List.filter (fun x => negb (blank x)) (x :: xs) = []) by (clear -Hx Ha; induction (Forall_cons_2 _ _ _ Hx Ha) as [|y ys Hy Hs IH]; [reflexivity|]; cbn; rewrite Hy; exact IH).
    rewrite E. reflexivity.
  Qed.
  Theorem C67_short n ms w r : r ∈ rows (shown n ms) w -> r_kind r = KShort ->
    let k := r_key r in
    let m := mark_of is_cancel (bool_decide (MCtrlC ∈ ms)) (bool_decide (MStart k ∈ since (registers k) ms)) (last_done k (since (registers k) ms)) in
    let name := s_style S (sign_style m) (sign m) ++ lit " " ++ s_style S StTitle (label k) in
    exists d ls, let indent := margin d in latest 5 (outputs k (since (restarts k) ms)) ls /\
      ((last_done k (since (registers k) ms) = Some None \/ Forall (fun l => trim_space l = []) ls) ->
         (s_width S (indent ++ name) <= w)%Z -> r_text r = indent ++ name) /\
      (forall before line after, ls = before ++ line :: after -> trim_space line <> [] -> Forall (fun l => trim_space l = []) after ->
         last_done k (since (registers k) ms) <> Some None ->
         (s_width S line <= w - s_width S indent - s_width S name - 2)%Z -> (s_width S line <> 0)%Z -> (0 <= s_width S line)%Z ->
         (s_width S (indent ++ name ++ lit "  " ++ s_style S StDim line) <= w)%Z ->
         r_text r = indent ++ name ++ lit "  " ++ s_style S StDim line).
  Proof.
    intros Hr Hs k m name.
    assert (H : Forall (fun r => r_kind r = KShort -> exists it d, v_items (shown n ms) !! r_key r = Some it /\
      r_text r = compact_line S is_cancel label (v_cancelled (shown n ms)) w (r_key r) it (margin d)) (rows (shown n ms) w)).
    { unfold grouped_rows. clear. induction (v_roots _) as [|x xs IH]; [constructor|]. cbn [map concat]. apply Forall_app. split; [apply (short_rows _ _ _ _ 0)|exact IH]. }
    rewrite Forall_forall in H. destruct (H r Hr Hs) as (it & d & Hk & Ht). fold k in Hk, Ht. exists d, (i_lines it). intros indent.
    split; [apply (C41_latest_lines _ _ _ _ _ Hk)|]. destruct (C41_status _ _ _ _ _ Hk) as (_ & Hd & He). pose proof (status_mark n grouped_max ms k it Hk) as Hm. cbv zeta in Hm. fold m in Hm.
    assert (Hb : forall l, trim_space l = [] <-> blank l = true) by (intros l; unfold blank; destruct (trim_space l); split; intros E; try discriminate E; reflexivity).
    rewrite Ht. fold indent. unfold compact_line. fold (shown n ms) in Hm. rewrite Hm. fold name. cbv zeta.
    assert (Htr : forall x, (s_width S x <= w)%Z -> truncate_line S x w = x).
    { intros x Hx. unfold truncate_line. destruct (Z.leb_spec (s_width S x) w); [|lia]. rewrite orb_true_r. reflexivity. }
    split.
    - intros Hq Hw. rewrite (Htr _ Hw). destruct Hq as [Hq|Hq].
      + rewrite (proj2 Hd) by eauto. rewrite He, Hq. reflexivity.
      + rewrite snippet_blank by (eapply Forall_impl; [exact Hq|]; intros l; apply Hb). destruct (i_done it), (i_err it); reflexivity.
    - intros before line after El Hl Ha Hn Hroom Hw0 Hw1 Hw. rewrite (snippet_latest _ before line after El); [| |eapply Forall_impl; [exact Ha|]; intros l; apply Hb].
      2: { destruct (blank line) eqn:E; [apply Hb in E; contradiction (Hl E)|reflexivity]. }
      assert (Hnot : forall (X : Type) (a b : X), match i_done it, i_err it with true, None => a | _, _ => b end = b).
      { intros X a b. destruct (i_done it) eqn:Edn; [|reflexivity]. destruct (i_err it) eqn:Eer; [reflexivity|]. exfalso. destruct (proj1 Hd eq_refl) as [x Hx]. apply Hn. rewrite Hx in He |- *. rewrite <- He. reflexivity. }
      rewrite Hnot. destruct line as [|c line]; [contradiction (Hl eq_refl)|].
      destruct (Z.leb_spec (w - s_width S indent - s_width S name - 2) 0); [lia|].
      destruct (Z.ltb_spec (w - s_width S indent - s_width S name - 2) (s_width S (c :: line))); [lia|]. apply Htr. exact Hw.
  Qed.

  (** When the block is over the display shows nothing any more, whatever was printed. *)
  Theorem C67_nothing_at_the_end n ms w : MAllDone ∈ ms -> grouped_view S is_cancel label (shown n ms) w = lit " ".
  Proof. intros H. unfold grouped_view, shown. rewrite (proj2 (done_iff _ _)) by (right; exact H). reflexivity. Qed.

  (** ** C66 *)
  Notation tabs_after := (tabs_after S is_cancel label).
  Notation tabs_step := (tabs_step S is_cancel label).
  Notation build_content := (build_content S is_cancel label).
  Notation update_viewport := (update_viewport S is_cancel label).

  Lemma tabs_snoc n es e : tabs_after n (es ++ [e]) = tabs_step (tabs_after n es) e.
  Proof. unfold View_Model.tabs_after. rewrite fold_left_app. reflexivity. Qed.
  Lemma sent_snoc es e : sent (es ++ [e]) = sent es ++ match e with EMsg m => [m] | _ => [] end.
  Proof. unfold sent. rewrite omap_app. destruct e; reflexivity. Qed.
  Lemma moves_snoc es e : moves (es ++ [e]) = (moves es + match e with ETab => 1 | EShiftTab => -1 | _ => 0 end)%Z.
  Proof. induction es as [|[] es IH]; cbn [app moves]; try (rewrite IH; lia). destruct e; simpl; lia. Qed.
  Lemma viewport_disp t : tb_disp (update_viewport t) = tb_disp t.
  Proof. unfold View_Model.update_viewport. destruct (v_roots (tb_disp t)); reflexivity. Qed.
  Lemma tabs_disp n es : tb_disp (tabs_after n es) = handle_all (new_display n 0) (sent es).
  Proof.
    induction es as [|e es IH] using rev_ind; [reflexivity|]. rewrite tabs_snoc, sent_snoc. destruct e as [m|w h| | |]; cbn [View_Model.tabs_step]; rewrite ?app_nil_r.
    - rewrite handle_all_snoc, <- IH. destruct m; rewrite ?viewport_disp; reflexivity.
    - rewrite viewport_disp. exact IH.
    - destruct (v_roots _); [exact IH|]. rewrite viewport_disp. exact IH.
    - destruct (v_roots _); [exact IH|]. rewrite viewport_disp. exact IH.
    - exact IH.
  Qed.
  Lemma tabs_roots n es : v_roots (tb_disp (tabs_after n es)) = roots n.
  Proof. rewrite tabs_disp, handle_all_roots. reflexivity. Qed.
  Lemma roots_length n : length (roots n) = n.
  Proof. unfold roots. rewrite map_length, seq_length. reflexivity. Qed.
  Lemma roots_lookup n i : i < n -> roots n !! i = Some (item_key i).
  Proof. intros Hi. unfold roots. change (map item_key (seq 0 n)) with (item_key <$> seq 0 n). rewrite list_lookup_fmap, lookup_seq_lt by exact Hi. reflexivity. Qed.
  Lemma clamp_id n a : (0 <= a < Z.of_nat n)%Z -> clamp n a = a.
  Proof. intros H. unfold clamp. destruct (Z.ltb_spec a 0); [lia|]. destruct (Z.leb_spec (Z.of_nat n) a); lia. Qed.
  Lemma viewport_active t : (0 <= tb_active t < Z.of_nat (length (v_roots (tb_disp t))))%Z -> tb_active (update_viewport t) = tb_active t.
  Proof. intros H. unfold View_Model.update_viewport. destruct (v_roots (tb_disp t)) eqn:E; [reflexivity|]. rewrite <- E in *. cbn [tb_active]. apply clamp_id. exact H. Qed.

  (** Whatever happens, the tab in front is the one reached by counting the presses of
      Tab and Shift+Tab around the circle. *)
  Theorem C66_which_tab n es : 0 < n -> tb_active (tabs_after n es) = (moves es mod Z.of_nat n)%Z.
  Proof.
    intros Hn. induction es as [|e es IH] using rev_ind; [simpl; rewrite Z.mod_0_l by lia; reflexivity|].
    pose proof (Z.mod_pos_bound (moves es) (Z.of_nat n) ltac:(lia)) as Hb. rewrite tabs_snoc, moves_snoc. pose proof (tabs_roots n es) as Hr. set (t := tabs_after n es) in *. clearbody t.
    assert (Hlen : length (v_roots (tb_disp t)) = n) by (rewrite Hr; apply roots_length).
    assert (Hrem : forall x, (0 <= x)%Z -> Z.rem x (Z.of_nat n) = (x mod Z.of_nat n)%Z) by (intros x Hx; apply Z.rem_mod_nonneg; lia).
    destruct e as [m|w h| | |]; cbn [View_Model.tabs_step].
    - rewrite Z.add_0_r. destruct m; try exact IH; rewrite viewport_active; cbn [tb_active tb_disp]; rewrite ?handle_roots, ?Hlen, ?IH; lia.
    - rewrite Z.add_0_r. rewrite viewport_active; cbn [tb_active tb_disp]; rewrite ?Hlen, ?IH; lia.
    - destruct (v_roots (tb_disp t)) eqn:E; [rewrite <- Hlen in Hn; simpl in Hn; lia|]. rewrite <- E in *. rewrite Hlen. rewrite IH, Hrem by lia. rewrite viewport_active; cbn [tb_active tb_disp]; [|rewrite Hlen; apply Z.mod_pos_bound; lia]. rewrite Zplus_mod_idemp_l. reflexivity.
    - destruct (v_roots (tb_disp t)) eqn:E; [rewrite <- Hlen in Hn; simpl in Hn; lia|]. rewrite <- E in *. rewrite Hlen. rewrite IH, Hrem by lia. rewrite viewport_active; cbn [tb_active tb_disp]; [|rewrite Hlen; apply Z.mod_pos_bound; lia].
      replace (moves es mod Z.of_nat n - 1 + Z.of_nat n)%Z with (moves es mod Z.of_nat n + -1 + 1 * Z.of_nat n)%Z by lia. rewrite Z.mod_add by lia. rewrite Zplus_mod_idemp_l. reflexivity.
    - rewrite Z.add_0_r. exact IH.
  Qed.
  (** So there always is an item in front. *)
  Theorem C66_an_item_in_front n es : 0 < n -> orderly (roots n) (sent es) -> exists i it, tb_active (tabs_after n es) = Z.of_nat i /\ i < n /\ after n 0 (sent es) (item_key i) = Some it.
  Proof.
    intros Hn Ho. rewrite (C66_which_tab n es Hn). pose proof (Z.mod_pos_bound (moves es) (Z.of_nat n) ltac:(lia)) as Hb. set (a := (moves es mod Z.of_nat n)%Z) in *.
    destruct (root_present n 0 (sent es) (item_key (Z.to_nat a)) Ho) as [it Hit]; [apply roots_spec; exists (Z.to_nat a); split; [lia|reflexivity]|]. exists (Z.to_nat a), it. split; [lia|]. split; [lia|exact Hit].
  Qed.

  (** The text shown is made from the state the messages so far lead to, up to the
      cancellation mark. *)
  Definition uncancelled (v : display) (c : bool) : display := Display (v_items v) (v_roots v) (v_max v) (v_done v) c.
  Lemma content_inv n es : 0 < n -> orderly (roots n) (sent es) -> existsb redraws es = true ->
    exists c it, after n 0 (sent es) (item_key (Z.to_nat (tb_active (tabs_after n es)))) = Some it /\ (MCtrlC ∉ sent es -> c = v_cancelled (tb_disp (tabs_after n es))) /\
      tb_content (tabs_after n es) = build_content (uncancelled (tb_disp (tabs_after n es)) c) it (content_width (tb_width (tabs_after n es))).
  Proof.
    intros Hn. induction es as [|e es IH] using rev_ind; intros Ho Hex; [discriminate Hex|].
    assert (Hstep : redraws e = true -> exists t, tb_disp t = tb_disp (tabs_after n (es ++ [e])) /\ (0 <= tb_active t < Z.of_nat n)%Z /\ tabs_after n (es ++ [e]) = update_viewport t).
    { intros Hr. rewrite tabs_snoc. assert (Hact : (0 <= tb_active (tabs_after n es) < Z.of_nat n)%Z) by (rewrite C66_which_tab by exact Hn; apply Z.mod_pos_bound; lia). pose proof (tabs_roots n es) as Hroots. set (t := tabs_after n es) in *. clearbody t.
      assert (Hlen : length (v_roots (tb_disp t)) = n) by (rewrite Hroots; apply roots_length).
      assert (Hrem : forall x, (0 <= x)%Z -> (0 <= Z.rem x (Z.of_nat n) < Z.of_nat n)%Z) by (intros x Hx; apply Z.rem_bound_pos; lia).
      destruct e as [m|w h| | |]; cbn [redraws] in Hr; cbn [View_Model.tabs_step].
      - destruct m; try discriminate Hr; eexists; (split; [|split; [|reflexivity]]); rewrite ?viewport_disp; (reflexivity || exact Hact).
      - eexists; (split; [|split; [|reflexivity]]); rewrite ?viewport_disp; (reflexivity || exact Hact).
      - destruct (v_roots (tb_disp t)) eqn:E; [rewrite <- Hlen in Hn; simpl in Hn; lia|]. rewrite <- E in *. eexists; (split; [|split; [|reflexivity]]); rewrite ?viewport_disp; [reflexivity|]. cbn [tb_active]. rewrite Hlen. apply Hrem. lia.
      - destruct (v_roots (tb_disp t)) eqn:E; [rewrite <- Hlen in Hn; simpl in Hn; lia|]. rewrite <- E in *. eexists; (split; [|split; [|reflexivity]]); rewrite ?viewport_disp; [reflexivity|]. cbn [tb_active]. rewrite Hlen. apply Hrem. lia.
      - discriminate Hr. }
    destruct (redraws e) eqn:Er.
    - clear IH. destruct (Hstep eq_refl) as (t & Hd & Hact & ->). clear Hstep Hex. rewrite tabs_disp in Hd.
      assert (Hroots : v_roots (tb_disp t) = roots n) by (rewrite Hd, handle_all_roots; reflexivity).
      rewrite viewport_active by (rewrite Hroots, roots_length; exact Hact). rewrite viewport_disp.
      set (i := Z.to_nat (tb_active t)). assert (Hi : i < n) by (subst i; lia). destruct (root_present n 0 _ (item_key i) Ho) as [it Hit]; [apply roots_spec; eauto|]. exists (v_cancelled (tb_disp t)), it. split; [exact Hit|]. split; [reflexivity|].
      unfold View_Model.update_viewport. destruct (v_roots (tb_disp t)) eqn:E; [rewrite <- (roots_length n), <- Hroots in Hi; simpl in Hi; lia|]. rewrite <- E in *. cbn [tb_content tb_width].
      rewrite clamp_id by (rewrite Hroots, roots_length; exact Hact). fold i. rewrite Hroots. replace (roots n !! i) with (Some (item_key i)) by (symmetry; apply roots_lookup; exact Hi). cbn [mbind option_bind].
      unfold after in Hit. rewrite <- Hd in Hit. rewrite Hit. destruct (tb_disp t); reflexivity.
    - clear Hstep. rewrite existsb_app in Hex. simpl in Hex. rewrite Er, ?orb_false_r in Hex. rewrite sent_snoc in Ho. rewrite sent_snoc, tabs_snoc. destruct (proj1 (orderly_app _ _ _) Ho) as [Ho1 _]. destruct (IH Ho1 Hex) as (c & it & Hk & Hcc & Hcont). exists c, it.
      destruct e as [[]|w h| | |]; try discriminate Er; rewrite ?app_nil_r; cbn [View_Model.tabs_step tb_active tb_disp tb_content tb_width].
      + split; [unfold after in *; rewrite handle_all_snoc; exact Hk|]. split; [intros Hn'; rewrite Hcc; [reflexivity|]; intros H; apply Hn', elem_of_app; auto|exact Hcont].
      + split; [unfold after in *; rewrite handle_all_snoc; exact Hk|]. split; [intros Hn'; exfalso; apply Hn', elem_of_app; right; left|exact Hcont].
      + split; [exact Hk|]. split; [exact Hcc|exact Hcont].
  Qed.

  (** Unless Ctrl-C was pressed, what is shown is what the present state calls for. *)
  Theorem C66_content_is_current n es : 0 < n -> orderly (roots n) (sent es) -> existsb redraws es = true -> MCtrlC ∉ sent es ->
    let t := tabs_after n es in tb_content t = tb_content (update_viewport t).
  Proof.
    intros Hn Ho Hex Hcc t. destruct (content_inv n es Hn Ho Hex) as (c & it & Hk & Hc & Hcont). fold t in Hk, Hc, Hcont. rewrite (Hc Hcc) in Hcont. rewrite Hcont.
    assert (Hact : (0 <= tb_active t < Z.of_nat n)%Z) by (subst t; rewrite C66_which_tab by exact Hn; apply Z.mod_pos_bound; lia). pose proof (tabs_roots n es) as Hroots. pose proof (tabs_disp n es) as Hd. fold t in Hroots, Hd.
    unfold View_Model.update_viewport. destruct (v_roots (tb_disp t)) eqn:E; [rewrite <- (roots_length n), <- Hroots in Hn; simpl in Hn; lia|]. rewrite <- E in *. cbn [tb_content].
    rewrite clamp_id by (rewrite Hroots, roots_length; exact Hact). rewrite Hroots. replace (roots n !! Z.to_nat (tb_active t)) with (Some (item_key (Z.to_nat (tb_active t)))) by (symmetry; apply roots_lookup; lia). cbn [mbind option_bind].
    unfold after in Hk. rewrite <- Hd in Hk. rewrite Hk. destruct (tb_disp t); reflexivity.
  Qed.
  (** The tab of an item that runs no block of its own holds everything it printed (since
      the last block it ran), Ctrl-C or not. *)
  Theorem C66_all_the_output n es : 0 < n -> orderly (roots n) (sent es) -> existsb redraws es = true ->
    let k := item_key (Z.to_nat (tb_active (tabs_after n es))) in
    forall it, after n 0 (sent es) k = Some it -> i_children it = [] -> outputs k (since (restarts k) (sent es)) <> [] ->
    tb_content (tabs_after n es) = join_with [nl] (outputs k (since (restarts k) (sent es))).
  Proof.
    intros Hn Ho Hex k it Hk Hch Hout. destruct (content_inv n es Hn Ho Hex) as (c & it' & Hk' & _ & ->). fold k in Hk'. rewrite Hk in Hk'. injection Hk' as <-. destruct (C41_latest_lines _ _ _ _ _ Hk) as (dr & E & Hd & _). rewrite (Hd eq_refl) in E. simpl in E.
    rewrite E in *. unfold View_Model.build_content. rewrite Hch. destruct (i_lines it); [contradiction|reflexivity].
  Qed.
  (** The tab of an item that runs a block has one line per item of that block, in
      order, with the mark of that item and its error or its last line. *)
  Theorem C66_one_line_per_child n es : 0 < n -> orderly (roots n) (sent es) -> existsb redraws es = true -> MCtrlC ∉ sent es ->
    let k := item_key (Z.to_nat (tb_active (tabs_after n es))) in
    forall it, after n 0 (sent es) k = Some it -> i_children it <> [] ->
    exists ls, tb_content (tabs_after n es) = join_with [nl] ls /\
      Forall2 (fun c l => let m := mark_of is_cancel false (bool_decide (MStart c ∈ since (registers c) (sent es))) (last_done c (since (registers c) (sent es))) in
                 let rest := match last_done c (since (registers c) (sent es)), last (outputs c (since (restarts c) (sent es))) with
                             | Some (Some e), _ => lit "  " ++ s_style S StBad e
                             | _, Some l => if blank l then [] else lit "  " ++ s_style S StDim l
                             | _, None => []
                             end in
                 l = truncate_line S (s_style S (sign_style m) (sign m) ++ lit " " ++ s_style S StTitle (label c) ++ rest) (1 `max` (tb_width (tabs_after n es) - 2))%Z) (i_children it) ls.
  Proof.
    intros Hn Ho Hex Hcc k it Hk Hch. destruct (content_inv n es Hn Ho Hex) as (c & it' & Hk' & Hc & ->). fold k in Hk'. rewrite Hk in Hk'. injection Hk' as <-.
    rewrite (Hc Hcc). set (v := uncancelled _ _).
    assert (Ew : forall z, content_width z = (1 `max` (z - 2))%Z) by (intros z; unfold content_width; destruct (Z.ltb_spec (z - 2) 1); lia). rewrite Ew. clear Ew.
    set (w := (1 `max` _)%Z). exists (omap (child_line S is_cancel label v w) (i_children it)). split; [unfold View_Model.build_content; destruct (i_children it); [contradiction|reflexivity]|].
    assert (Hpres : Forall (fun c => is_Some (after n 0 (sent es) c)) (i_children it)) by (apply Forall_forall; intros x Hx; destruct (full_all n 0 _ Ho _ _ Hk) as [_ H]; exact (H _ Hx)).
    pose proof (tabs_disp n es) as Hd. clear Hk Hch. induction Hpres as [|x xs [y Hy] Hpres IH]; [constructor|].
    destruct (C41_status _ _ _ _ _ Hy) as (_ & Hdn & He). destruct (C41_latest_lines _ _ _ _ _ Hy) as (dr & El & Hdr & _). rewrite (Hdr eq_refl) in El. simpl in El.
    pose proof (status_mark n 0 (sent es) x y Hy) as Hm. rewrite (bool_decide_eq_false_2 (MCtrlC ∈ sent es)) in Hm by exact Hcc. cbv zeta in Hm.
    cbn [omap list_omap]. unfold child_line at 1. replace (v_items v !! x) with (Some y) by (subst v; cbn [uncancelled v_items]; rewrite Hd; symmetry; exact Hy). constructor; [|exact IH].
    cbv zeta. rewrite <- Hm. replace (v_cancelled v) with (v_cancelled (handle_all (new_display n 0) (sent es))) by (subst v; cbn [uncancelled v_cancelled]; rewrite Hd; reflexivity).
    rewrite He, El. f_equal. destruct (last_done x _) as [[e|]|].
    - rewrite (proj2 Hdn) by eauto. rewrite <- !app_assoc. reflexivity.
    - rewrite (proj2 Hdn) by eauto. destruct (last (i_lines y)) as [l|]; [destruct (blank l)|]; rewrite ?app_nil_r, <- ?app_assoc; reflexivity.
    - destruct (i_done y); (destruct (last (i_lines y)) as [l|]; [destruct (blank l)|]; rewrite ?app_nil_r, <- ?app_assoc; reflexivity).
  Qed.
End Views.

(** ** Cases *)

(** A screen without colours on which every byte takes a column. *)
Definition plain : screen := Screen (fun s => Z.of_nat (length s)) (fun s n tail => take (Z.to_nat n) s ++ tail) (fun _ s => s).
Example plain_cuts : cuts_well plain.
Proof. intros s n Hn. unfold plain. cbn [s_width s_cut]. rewrite app_nil_r, take_length. lia. Qed.
Definition named (k : str) : str := lit "job-" ++ k.
Definition is_c (e : str) : bool := bool_decide (e = lit "cancelled").

(** In the middle of the run of [both]: the first item runs a block of two, the second
    has printed a line. *)
Example C67_met : orderly (roots 2) (firstn 11 both) /\
  map (fun r => (r_key r, r_kind r)) (grouped_rows plain is_c named (shown 2 (firstn 11 both)) 40) =
    [(lit "0", KTitle); (lit "0.0", KShort); (lit "0.1", KShort); (lit "0", KFoot); (lit "1", KTitle); (lit "1", KLine 0); (lit "1", KPad); (lit "1", KPad); (lit "1", KPad); (lit "1", KPad); (lit "1", KFoot)] /\
  Row (lit "0.1") KShort (sg_side ++ lit "  " ++ sg_running ++ lit " job-0.1  x") ∈ grouped_rows plain is_c named (shown 2 (firstn 11 both)) 40.
Proof.
  split.
  - destruct C41_met as [H _]. apply C41_orderly in H. rewrite <- (firstn_skipn 11 both) in H. apply orderly_app in H as [H _]. exact H.
  - split; [vm_compute; reflexivity|]. apply (elem_of_list_lookup_2 _ 2). vm_compute. reflexivity.
Qed.
(** A title without room for the mark: a failure and a success look the same. *)
Theorem C67_mark_cut_refuted : exists label ms1 ms2 w,
  orderly (roots 1) ms1 /\ orderly (roots 1) ms2 /\ last_done (lit "0") ms1 = Some None /\ last_done (lit "0") ms2 = Some (Some (lit "bad")) /\
  grouped_view plain is_c label (shown 1 ms1) w = grouped_view plain is_c label (shown 1 ms2) w.
Proof. exists (fun _ => replicate 80 "x"%char), [MStart (lit "0"); MDone (lit "0") None], [MStart (lit "0"); MDone (lit "0") (Some (lit "bad"))], 80%Z. repeat split. Qed.

Definition keys : list event := map EMsg (firstn 11 both) ++ [ESize 40 20; ETab; ETab; ETab; EShiftTab; EShiftTab; EShiftTab; EShiftTab; EOther].
Example C66_met : orderly (roots 2) (sent keys) /\ existsb redraws keys = true /\ MCtrlC ∉ sent keys /\ moves keys = (-1)%Z /\ tb_active (tabs_after plain is_c named 2 keys) = 1%Z /\ tb_content (tabs_after plain is_c named 2 keys) = lit "z" /\
  tb_content (tabs_after plain is_c named 2 (keys ++ [ETab])) = sg_ok ++ lit " job-0.0  y" ++ [nl] ++ sg_running ++ lit " job-0.1  x".
Proof.
  assert (E : sent keys = firstn 11 both) by reflexivity. split; [rewrite E; apply C67_met|]. split; [reflexivity|]. split; [|repeat split; vm_compute; reflexivity].
  apply (bool_decide_eq_true_1 _). vm_compute. reflexivity.
Qed.
(** After Ctrl-C the marks in a tab are old ones until something else happens. *)
Theorem C66_stale_refuted : exists n es, orderly (roots n) (sent es) /\ existsb redraws es = true /\
  let t := tabs_after plain is_c named n es in tb_content t <> tb_content (update_viewport plain is_c named t).
Proof.
  exists 1, [EMsg (MRegister (lit "0.0") (lit "0")); EMsg MCtrlC]. split; [|split; [reflexivity|vm_compute; discriminate]].
  split; [exists 0; reflexivity|]. split; [discriminate|]. split; [apply (bool_decide_eq_true_1 _); vm_compute; reflexivity|]. split; [|exact I]. apply (bool_decide_eq_true_1 _); vm_compute; reflexivity.
Qed.
(** An item that is over and printed nothing is still called running. *)
Theorem C66_running_refuted : exists es, orderly (roots 1) (sent es) /\ existsb redraws es = true /\ last_done (lit "0") (sent es) = Some (Some (lit "bad")) /\
  tb_content (tabs_after plain is_c named 1 es) = lit "Running" ++ sg_dots.
Proof. exists [EMsg (MStart (lit "0")); EMsg (MDone (lit "0") (Some (lit "bad")))]. repeat split. Qed.

Print Assumptions C66_which_tab.
Print Assumptions C66_an_item_in_front.
Print Assumptions C66_content_is_current.
Print Assumptions C66_all_the_output.
Print Assumptions C66_one_line_per_child.
Print Assumptions C66_stale_refuted.
Print Assumptions C66_running_refuted.
Print Assumptions C67_every_item_once.
Print Assumptions C67_order.
Print Assumptions C67_fits.
Print Assumptions C67_lines.
Print Assumptions C67_height.
Print Assumptions C67_mark.
Print Assumptions C67_short.
Print Assumptions C67_mark_cut_refuted.
Print Assumptions C67_nothing_at_the_end.
