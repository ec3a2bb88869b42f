(** C72: what writers inside writers show. C73: they never wait for each other for ever. *)
From Verif Require Import Base Utf8_Model Utf8_Spec Utf8_Proof Out_Model Out_Spec Out_Proof P_Out Nest_Model Nest_Spec Nest_Proof Nest_Hist.

(** ** C72 *)

(** Whatever the scheduling: every writer gets the calls of its goroutine in order and the
    lines of the writers below whole, and passes each of its own lines on, once. *)
Theorem C72_nested a ws calls s : nested ws -> one_block ws -> rtc (nstep a ws) (nstart calls) s -> nfinished s ->
  exists hist log, comes_out a ws calls (ns_out s) hist log.
Proof. intros Hn Ho Hr Hf. destruct (all_comes_out a ws Hn Ho calls s Hr Hf) as (hist & log & H & _). eauto. Qed.

Lemma elem_of_writer {A} i (x : A) (l : list (nat * A)) : x ∈ (List.filter (fun e => Nat.eqb e.1 i) l).*2 <-> (i, x) ∈ l.
Proof.
  induction l as [|[k y] l IH]; simpl; [split; intros H; apply elem_of_nil in H as []|]. destruct (Nat.eqb_spec k i) as [->|Hne]; simpl; rewrite !elem_of_cons, IH; [split; (intros [H|H]; [left; congruence|right; exact H])|].
  split; [auto|]. intros [H|H]; [congruence|exact H].
Qed.
(** Of a merge of sequences whose parts are refined, the merge is refined. *)
Lemma merge {X Y} (R : nat -> X -> Y -> Prop) (ev : list (nat * Y)) : forall M : nat -> list X,
  (forall c, Forall2 (R c) (M c) (List.filter (fun e => Nat.eqb e.1 c) ev).*2) ->
  exists m : list (nat * X), Forall2 (fun x y => x.1 = y.1 /\ R x.1 x.2 y.2) m ev /\ forall c, (List.filter (fun e => Nat.eqb e.1 c) m).*2 = M c.
Proof.
  induction ev as [|[c y] ev IH]; intros M HM.
  - exists []. split; [constructor|]. intros c. specialize (HM c). inversion HM. reflexivity.
  - pose proof (HM c) as Hc. simpl in Hc. rewrite Nat.eqb_refl in Hc. simpl in Hc. inversion Hc as [|x y' rest ev' Hx Hrest E1 E2]; subst.
    destruct (IH (upd M c rest)) as (m & Hm & Hof).
    { intros k. destruct (decide (k = c)) as [->|Hk]; [rewrite upd_same; exact Hrest|rewrite upd_other by exact Hk]. specialize (HM k). simpl in HM. destruct (Nat.eqb_spec c k); [congruence|]. exact HM. }
    exists ((c, x) :: m). split; [constructor; [auto|exact Hm]|]. intros k. simpl. specialize (Hof k). destruct (Nat.eqb_spec c k) as [->|Hk]; simpl.
    + rewrite upd_same in Hof. transitivity (x :: rest); [f_equal; exact Hof|congruence].
    + rewrite upd_other in Hof by congruence. exact Hof.
Qed.
Lemma through c i (mm : list (nat * (nat * str))) : (forall c' l, (c', (i, l)) ∈ mm -> c' = c) ->
  of_writer i mm.*2 = of_writer i (List.filter (fun e => Nat.eqb e.1 c) mm).*2.
Proof.
  unfold of_writer. induction mm as [|[c' [i' l]] mm IH]; intros H; [reflexivity|]. simpl.
  assert (IH' := IH (fun c'' l' Hx => H c'' l' ltac:(right; exact Hx))). destruct (Nat.eqb_spec i' i) as [->|Hi].
  - rewrite (H c' l ltac:(left)), Nat.eqb_refl. simpl. rewrite Nat.eqb_refl. simpl. f_equal. exact IH'.
  - destruct (Nat.eqb_spec c' c) as [->|Hc]; simpl; [destruct (Nat.eqb_spec i' i); [congruence|]|]; exact IH'.
Qed.

Section Tree.
  Context (a : ansi_lib) (ws : list nwriter) (Hnest : nested ws).
  Lemma under_first i k : under ws i k -> i = k \/ exists w j, ws !! i = Some w /\ n_dest w = Into j /\ under ws j k.
  Proof.
    intros H. induction H as [i|i c w j H IH Hw Hd]; [auto|]. right. destruct IH as [->|(w0 & j0 & Hw0 & Hd0 & Hu)].
    - exists w, j. split; [exact Hw|]. split; [exact Hd|constructor].
    - exists w0, j0. split; [exact Hw0|]. split; [exact Hd0|]. econstructor; eauto.
  Qed.
  Lemma under_mutex i k w w' : under ws i k -> ws !! i = Some w -> ws !! k = Some w' -> n_mutex w' <= n_mutex w.
  Proof.
    intros H. revert w'. induction H as [i|i c wc j H IH Hwc Hd]; intros w' Hw Hw'; [assert (w = w') as -> by congruence; lia|].
    destruct (Hnest _ _ _ Hwc Hd) as (x & Hx & Hlt). assert (x = w') as -> by congruence. pose proof (IH _ Hw Hwc). lia.
  Qed.
  Lemma under_linear i c c' : under ws i c -> under ws i c' -> under ws c c' \/ under ws c' c.
  Proof.
    intros H. revert c'. induction H as [i|i c w j H IH Hw Hd]; intros c' H'; [auto|]. destruct (IH c' H') as [Hu|Hu].
    - apply under_first in Hu as [->|(w0 & j0 & Hw0 & Hd0 & Hu)]; [right; econstructor; [constructor|exact Hw|exact Hd]|]. left. assert (j0 = j) as -> by congruence. exact Hu.
    - right. econstructor; eauto.
  Qed.
  Lemma one_way i c c' w w' j : under ws i c -> under ws i c' -> ws !! c = Some w -> ws !! c' = Some w' -> n_dest w = Into j -> n_dest w' = Into j -> c = c'.
  Proof.
    assert (Hno : forall c c' w w', under ws c c' -> ws !! c = Some w -> ws !! c' = Some w' -> n_dest w = Into j -> n_dest w' = Into j -> c = c').
    { intros x y wx wy Hu Hx Hy Hdx Hdy. apply under_first in Hu as [->|(w0 & j0 & Hw0 & Hd0 & Hu)]; [reflexivity|]. assert (j0 = j) as -> by congruence.
      destruct (Hnest _ _ _ Hy Hdy) as (wj & Hwj & Hlt). pose proof (under_mutex _ _ _ _ Hu Hwj Hy). lia. }
    intros H1 H2 Hc Hc' Hd Hd'. destruct (under_linear _ _ _ H1 H2) as [Hu|Hu]; [eapply Hno; eassumption|]. symmetry. eapply Hno; eassumption.
  Qed.
  Lemma one_end i c c' w w' e e' : under ws i c -> under ws i c' -> ws !! c = Some w -> ws !! c' = Some w' -> n_dest w = Terminal e -> n_dest w' = Terminal e' -> c = c'.
  Proof.
    intros H1 H2 Hc Hc' Hd Hd'. destruct (under_linear _ _ _ H1 H2) as [Hu|Hu]; apply under_first in Hu as [H|(w0 & j0 & Hw0 & Hd0 & _)]; congruence.
  Qed.

  (** What becomes of a line of [i] when it is a line of [j]. *)
  Inductive part_way : nat -> str -> nat -> str -> Prop :=
  | pw_self i l : part_way i l i l
  | pw_more i l c t w j : part_way i l c t -> ws !! c = Some w -> n_dest w = Into j -> part_way i l j (w_prefix (n_as w) ++ shown a (w_stripped (n_as w)) t).
  Lemma part_way_under i l j t : part_way i l j t -> under ws i j.
  Proof. intros H. induction H; [constructor|econstructor; eauto]. Qed.
  Lemma part_way_carries i l j t r : part_way i l j t -> carries a ws j t r -> carries a ws i l r.
  Proof. intros H. induction H as [i l|i l c t w j H IH Hw Hd]; intros Hr; [exact Hr|]. apply IH. eapply carries_on; eauto. Qed.

  Context (Hone : one_block ws) (Hflat : flat a ws) (calls : list (list (nat * wop))) (src : nat -> option (nat * list str)) (Hpl : plumbed ws calls src).
  Context (out : nat -> str) (hist : nat -> history) (log : nat -> list (nat * str)) (Hco : comes_out a ws calls out hist log).

  (** A line whole, written to an empty buffer. *)
  Lemma whole_line l : nl ∉ l -> wcall [] (WWrite (l ++ [nl])) = ([l], []).
  Proof.
    intros H. simpl. destruct (process_cuts [] (l ++ [nl])) as (ls & p' & E & Hc). rewrite E.
    pose proof (cuts_fun _ _ _ _ _ Hc (cuts_line l [] [] [] H (cuts_end [] ltac:(apply not_elem_of_nil)))) as [-> ->]. reflexivity.
  Qed.
  (** The calls of one goroutine only. *)
  Lemma only_one h t : (forall x o, (x, o) ∈ h -> x = Direct t) -> h.*2 = made_by (Direct t) h.
  Proof.
    induction h as [|[x o] h IH]; intros H; [reflexivity|]. unfold made_by. simpl. rewrite bool_decide_eq_true_2 by (eapply H; left). simpl. f_equal. apply IH. intros y o' Hy. eapply H. right. exact Hy.
  Qed.
  Lemma made_by_elem x o h : o ∈ made_by x h <-> (x, o) ∈ h.
  Proof.
    unfold made_by. induction h as [|[y p] h IH]; simpl; [split; intros H; apply elem_of_nil in H as []|]. destruct (bool_decide_reflect (y = x)) as [->|Hne]; simpl; rewrite !elem_of_cons, IH; [split; (intros [H|H]; [left; congruence|right; exact H])|].
    split; [auto|]. intros [H|H]; [congruence|exact H].
  Qed.
  (** Lines of the writers below, one per call. *)
  Definition below_lines (h : history) : list (nat * str) := omap (fun e => match e with (From c, WWrite d) => Some (c, removelast d) | _ => None end) h.
  Lemma below_of h c ls : made_by (From c) h = map (fun l => WWrite (l ++ [nl])) ls -> of_writer c (below_lines h) = ls.
  Proof.
    revert ls. induction h as [|[x o] h IH]; intros ls H; [destruct ls; [reflexivity|discriminate H]|].
    unfold made_by in H. simpl in H. unfold of_writer. destruct (bool_decide_reflect (x = From c)) as [->|Hne]; simpl in H.
    - destruct ls as [|l ls]; [discriminate H|]. simpl in H. injection H as -> H. simpl. rewrite Nat.eqb_refl. simpl. rewrite removelast_last. f_equal. apply IH. exact H.
    - simpl. destruct x as [t|c']; [apply IH; exact H|]. destruct o as [d|]; [|apply IH; exact H]. simpl. destruct (Nat.eqb_spec c' c); [congruence|]. apply IH. exact H.
  Qed.
  Lemma below_all h : (forall x o, (x, o) ∈ h -> match x with Direct _ => o = WFlush | From _ => exists l, nl ∉ l /\ o = WWrite (l ++ [nl]) end) ->
    wcalls [] h.*2 = ((below_lines h).*2, []).
  Proof.
    induction h as [|[x o] h IH]; intros H; [reflexivity|]. pose proof (H x o ltac:(left)) as Hx. assert (IH' := IH (fun y p Hy => H y p ltac:(right; exact Hy))). cbn [fmap list_fmap snd wcalls].
    destruct x as [t|c]; [subst o; change (wcall [] WFlush) with (([] : list str), ([] : str)); cbv iota beta; rewrite IH'; reflexivity|]. destruct Hx as (l & Hl & ->). rewrite (whole_line l Hl). cbv iota beta. rewrite IH'. simpl. rewrite removelast_last. reflexivity.
  Qed.
  Lemma below_elem h c l : (c, l) ∈ below_lines h -> exists d, (From c, WWrite d) ∈ h.
  Proof. intros H. apply elem_of_list_omap in H as ([[t|c'] [d|]] & Hx & E); try discriminate E. injection E as -> _. eauto. Qed.

  (** No line has a newline inside. *)
  Lemma lines_no_nl s ls : lines s ls -> Forall (fun l => nl ∉ l) ls.
  Proof. intros H. induction H; repeat constructor; assumption. Qed.

  Definition leads (j : nat) (m : list (nat * str)) : Prop :=
    Forall2 (fun x t => part_way x.1 x.2 j t) m (lines_of (hist j)) /\
    (forall i t chunks, src i = Some (t, chunks) -> is_Some (ws !! i) -> under ws i j -> lines (concat chunks) (of_writer i m)) /\
    (forall i l, (i, l) ∈ m -> src i <> None /\ nl ∉ l) /\ Forall (fun t => nl ∉ t) (lines_of (hist j)).
  Lemma tree n : forall j w, ws !! j = Some w -> (forall i w', ws !! i = Some w' -> n_mutex w' < n_mutex w + n) -> exists m, leads j m.
  Proof.
    induction n as [|n IH]; intros j w Hw Hn; [specialize (Hn _ _ Hw); lia|]. pose proof (Hpl _ _ Hw) as Hsrc. destruct (src j) as [[t chunks]|] eqn:Es.
    - destruct Hsrc as (Hleaf & (cs & Hcs & Hcalls) & Hothers). exists (map (pair j) (lines_of (hist j))).
      assert (Hall : (hist j).*2 = map WWrite chunks ++ [WFlush]).
      { rewrite <- Hcalls, <- (co_direct _ _ _ _ _ _ Hco t cs j Hcs). apply only_one. intros x o Hx. pose proof (co_nothing_else _ _ _ _ _ _ Hco j x o Hx) as Hs. destruct x as [t'|c].
        - f_equal. destruct (decide (t' = t)) as [->|Ht]; [reflexivity|]. exfalso. apply lookup_lt_is_Some_2 in Hs as [cs' Hcs']. pose proof (Hothers _ _ Hcs' Ht) as H0. rewrite <- (co_direct _ _ _ _ _ _ Hco t' cs' j Hcs') in H0. apply made_by_elem in Hx. rewrite H0 in Hx. apply elem_of_nil in Hx as [].
        - destruct Hs as (w' & Hw' & Hd'). exfalso. eapply Hleaf; eassumption. }
      destruct (C36_chunking_does_not_matter chunks) as (ls & Els & Hls). assert (El : lines_of (hist j) = ls) by (unfold lines_of; rewrite Hall, Els; reflexivity). pose proof (lines_no_nl _ _ Hls) as Hnl. rewrite El.
      assert (Hof : of_writer j (map (pair j) ls) = ls) by (clear; induction ls as [|l ls IH]; [reflexivity|]; unfold of_writer; simpl; rewrite Nat.eqb_refl; simpl; f_equal; exact IH).
      split; [|split; [|split]].
      + rewrite El. clear. induction ls; simpl; constructor; [constructor|assumption].
      + intros i t' ch Hi Hsome Hu. assert (i = j) as ->. { destruct Hu as [i|i c w' j Hu Hc Hd]; [reflexivity|]. exfalso. eapply Hleaf; eassumption. } rewrite Es in Hi. injection Hi as <- <-. rewrite Hof. exact Hls.
      + intros i l Hx. apply elem_of_list_fmap in Hx as (l' & E & Hx). injection E as -> ->. split; [congruence|]. rewrite Forall_forall in Hnl. apply Hnl. exact Hx.
      + rewrite El. exact Hnl.
    - (* the lines of those below *)
      assert (Hch : forall c, exists m, (forall w', ws !! c = Some w' -> n_dest w' = Into j -> leads c m) /\ ((forall w', ws !! c = Some w' -> n_dest w' <> Into j) -> m = [])).
      { intros c. destruct (ws !! c) as [wc|] eqn:Hwc; [|exists []; split; [intros w' H; discriminate H|reflexivity]]. destruct (n_dest wc) as [e|k] eqn:Hd; [exists []; split; [intros w' [= <-]; congruence|reflexivity]|].
        destruct (decide (k = j)) as [->|Hk]; [|exists []; split; [intros w' [= <-]; congruence|reflexivity]]. destruct (Hnest _ _ _ Hwc Hd) as (x & Hx & Hlt). assert (x = w) as -> by congruence.
        destruct (IH c wc Hwc) as (m & Hm). { intros i w' Hi. specialize (Hn _ _ Hi). lia. }
        exists m. split; [intros w' _ _; exact Hm|]. intros H. exfalso. eapply H; [reflexivity|exact Hd]. }
      (* they come one by one *)
      assert (Hkind : forall x o, (x, o) ∈ hist j -> match x with Direct _ => o = WFlush | From c => exists w' l, ws !! c = Some w' /\ n_dest w' = Into j /\ nl ∉ l /\ l ∈ map (fun t => w_prefix (n_as w') ++ shown a (w_stripped (n_as w')) t) (lines_of (hist c)) /\ o = WWrite (l ++ [nl]) end).
      { intros x o Hx. pose proof (co_nothing_else _ _ _ _ _ _ Hco j x o Hx) as Hs. apply made_by_elem in Hx. destruct x as [t|c].
        - apply lookup_lt_is_Some_2 in Hs as [cs Hcs]. rewrite (co_direct _ _ _ _ _ _ Hco t cs j Hcs) in Hx. pose proof (Hsrc t cs Hcs) as H0. rewrite Forall_forall in H0. apply H0. exact Hx.
        - destruct Hs as (w' & Hw' & Hd'). rewrite (co_into _ _ _ _ _ _ Hco c w' j Hw' Hd') in Hx. apply elem_of_list_fmap in Hx as (l & -> & Hl). exists w', (w_prefix (n_as w') ++ shown a (w_stripped (n_as w')) l). split; [exact Hw'|]. split; [exact Hd'|].
          destruct (Hch c) as (m & Hm & _). pose proof (Hm w' Hw' Hd') as (_ & _ & _ & Hf). rewrite Forall_forall in Hf. pose proof (Hf l Hl) as Hnl. destruct (Hflat _ _ Hw') as [Hp Hs]. split; [rewrite elem_of_app; intros [H|H]; [apply Hp, H|apply (Hs l Hnl H)]|]. split; [apply elem_of_list_fmap; eauto|]. unfold line_bytes. rewrite <- app_assoc. reflexivity. }
      assert (Hall : lines_of (hist j) = (below_lines (hist j)).*2).
      { unfold lines_of. rewrite below_all; [reflexivity|]. intros x o Hx. pose proof (Hkind x o Hx) as H0. destruct x as [t|c]; [exact H0|]. destruct H0 as (w' & l & _ & _ & Hl & _ & ->). eauto. }
      assert (Hfun : exists M : nat -> list (nat * str), forall c, (forall w', ws !! c = Some w' -> n_dest w' = Into j -> leads c (M c)) /\ ((forall w', ws !! c = Some w' -> n_dest w' <> Into j) -> M c = [])).
      { assert (Hb : exists M : nat -> list (nat * str), forall c, c < length ws -> (forall w', ws !! c = Some w' -> n_dest w' = Into j -> leads c (M c)) /\ ((forall w', ws !! c = Some w' -> n_dest w' <> Into j) -> M c = [])).
        { generalize (length ws). intros k. induction k as [|k [M HM]]; [exists (fun _ => []); intros c Hc; lia|]. destruct (Hch k) as [m Hm]. exists (upd M k m). intros c Hc. destruct (decide (c = k)) as [->|Hne]; [rewrite upd_same; exact Hm|rewrite upd_other by exact Hne; apply HM; lia]. }
        destruct Hb as [M HM]. exists (fun c => if decide (c < length ws) then M c else []). intros c. destruct (decide (c < length ws)) as [Hc|Hc]; [apply HM; exact Hc|]. split; [|reflexivity]. intros w' Hw'. apply lookup_lt_Some in Hw'. lia. }
      destruct Hfun as [M HM].
      set (R := fun c (x : nat * str) (t : str) => exists w' t0, ws !! c = Some w' /\ n_dest w' = Into j /\ part_way x.1 x.2 c t0 /\ t = w_prefix (n_as w') ++ shown a (w_stripped (n_as w')) t0).
      assert (Hof : forall c w', ws !! c = Some w' -> n_dest w' = Into j -> of_writer c (below_lines (hist j)) = map (fun t => w_prefix (n_as w') ++ shown a (w_stripped (n_as w')) t) (lines_of (hist c))).
      { intros c w' Hw' Hd'. apply below_of. rewrite (co_into _ _ _ _ _ _ Hco c w' j Hw' Hd'), map_map. apply map_ext. intros l. unfold line_bytes. rewrite <- app_assoc. reflexivity. }
      destruct (merge R (below_lines (hist j)) M) as (mm & Hmm & HofM).
      { intros c. fold (of_writer c (below_lines (hist j))). destruct (HM c) as [H1 H2]. assert (Hcase : (exists w', ws !! c = Some w' /\ n_dest w' = Into j) \/ forall w', ws !! c = Some w' -> n_dest w' <> Into j).
        { destruct (ws !! c) as [wc|]; [|right; intros w' H; discriminate H]. destruct (n_dest wc) as [e|k] eqn:Hd; [right; intros w' [= <-]; congruence|]. destruct (decide (k = j)) as [->|Hk]; [left; eauto|right; intros w' [= <-]; congruence]. }
        destruct Hcase as [(w' & Hw' & Hd')|Hno].
        - rewrite (Hof c w' Hw' Hd'). destruct (H1 w' Hw' Hd') as (Hf2 & _). clear -Hf2 Hw' Hd'. induction Hf2 as [|x t xs ts Hx Hxs IHx]; simpl; constructor; [|exact IHx]. exists w', t. auto.
        - rewrite (H2 Hno). destruct (of_writer c (below_lines (hist j))) as [|l r] eqn:E; [constructor|]. exfalso. assert (Hin : l ∈ of_writer c (below_lines (hist j))) by (rewrite E; left). apply elem_of_writer in Hin. apply below_elem in Hin as [d Hd]. destruct (co_nothing_else _ _ _ _ _ _ Hco j _ _ Hd) as (w' & Hw' & Hd'). eapply Hno; eassumption. }
      assert (Hfrom : forall c x, (c, x) ∈ mm -> exists w', ws !! c = Some w' /\ n_dest w' = Into j /\ x ∈ M c).
      { intros c x Hx. assert (Hin : x ∈ M c) by (rewrite <- HofM; apply elem_of_writer; exact Hx). apply elem_of_list_lookup_1 in Hx as [k Hk]. destruct (Forall2_lookup_l _ _ _ _ _ Hmm Hk) as ([c' t] & _ & Ec & (w' & t0 & Hw' & Hd' & _)). simpl in *. subst. eauto. }
      assert (Hund : forall c x l, (c, (x, l)) ∈ mm -> under ws x c).
      { intros c x l Hx. destruct (Hfrom _ _ Hx) as (w' & Hw' & Hd' & Hin). destruct (proj1 (HM c) w' Hw' Hd') as (Hf2 & _). apply elem_of_list_lookup_1 in Hin as [k Hk]. destruct (Forall2_lookup_l _ _ _ _ _ Hf2 Hk) as (t & _ & Hp). apply part_way_under in Hp. exact Hp. }
      exists mm.*2. split; [|split; [|split]].
      + rewrite Hall. clear -Hmm. induction Hmm as [|[c x] [c' t] mm ts [E (w' & t0 & Hw' & Hd' & Hp & Et)] _ IHm]; simpl; constructor; [|exact IHm]. simpl in *. subst. econstructor; eauto.
      + intros i t chunks Hi Hsome Hu. destruct Hu as [i|i c w' j Hu Hc Hd]; [congruence|]. rewrite (through c i).
        * rewrite HofM. destruct (proj1 (HM c) w' Hc Hd) as (_ & H0 & _). eapply H0; eassumption.
        * intros c' l Hx. destruct (Hfrom _ _ Hx) as (w'' & Hc' & Hd' & _). eapply (one_way i c' c); [eapply Hund; exact Hx|exact Hu|exact Hc'|exact Hc|exact Hd'|exact Hd].
      + intros i l Hx. apply elem_of_list_fmap in Hx as ([c x] & E & Hx). simpl in E. subst x. destruct (Hfrom _ _ Hx) as (w' & Hw' & Hd' & Hin). destruct (proj1 (HM c) w' Hw' Hd') as (_ & _ & H0 & _). apply (H0 _ _ Hin).
      + rewrite Hall, Forall_fmap, Forall_forall. intros [c l] Hx. simpl. apply elem_of_list_omap in Hx as ([[t|c'] [d|]] & Hx & E); try discriminate E. injection E as <- <-. destruct (Hkind _ _ Hx) as (w' & l & _ & _ & Hl & _ & [= ->]). rewrite removelast_last. exact Hl.
  Qed.

  Lemma terminal e : exists m, exists txt : list str, Forall2 (fun x t => carries a ws x.1 x.2 t) m txt /\ out e = concat (map (fun t => t ++ [nl]) txt) /\
    (forall i t chunks, src i = Some (t, chunks) -> is_Some (ws !! i) -> reaches ws i e -> lines (concat chunks) (of_writer i m)) /\
    (forall i l, (i, l) ∈ m -> src i <> None /\ reaches ws i e) /\ Forall (fun t => nl ∉ t) txt.
  Proof.
    assert (Hmax : exists N, forall i w, ws !! i = Some w -> n_mutex w < N).
    { exists (S (list_max (map n_mutex ws))). intros i w Hw. pose proof (proj1 (list_max_le (map n_mutex ws) (list_max (map n_mutex ws))) ltac:(lia)) as H. rewrite Forall_forall in H. assert (n_mutex w <= list_max (map n_mutex ws)); [|lia]. apply H. apply elem_of_list_fmap. exists w. split; [reflexivity|]. eapply elem_of_list_lookup_2. exact Hw. }
    destruct Hmax as [N HN]. assert (Htree : forall j w, ws !! j = Some w -> exists m, leads j m) by (intros j w Hw; apply (tree (S N) j w Hw); intros i w' Hi; specialize (HN _ _ Hi); lia).
    assert (Hb : forall k, exists M : nat -> list (nat * str), forall c, c < k -> (forall w', ws !! c = Some w' -> n_dest w' = Terminal e -> leads c (M c)) /\ ((forall w', ws !! c = Some w' -> n_dest w' <> Terminal e) -> M c = [])).
    { intros k. induction k as [|k [M HM]]; [exists (fun _ => []); intros c Hc; lia|]. assert (Hm : exists m, (forall w', ws !! k = Some w' -> n_dest w' = Terminal e -> leads k m) /\ ((forall w', ws !! k = Some w' -> n_dest w' <> Terminal e) -> m = [])).
      { destruct (ws !! k) as [w|] eqn:Hw; [|exists []; split; [intros w' H; discriminate H|reflexivity]]. destruct (n_dest w) as [e'|j] eqn:Hd; [|exists []; split; [intros w' [= <-]; congruence|reflexivity]].
        destruct (decide (e' = e)) as [->|Hne]; [|exists []; split; [intros w' [= <-]; congruence|reflexivity]]. destruct (Htree k w Hw) as [m Hm]. exists m. split; [auto|]. intros H. exfalso. eapply H; [reflexivity|exact Hd]. }
      destruct Hm as [m Hm]. exists (upd M k m). intros c Hc. destruct (decide (c = k)) as [->|Hne]; [rewrite upd_same; exact Hm|rewrite upd_other by exact Hne; apply HM; lia]. }
    destruct (Hb (length ws)) as [M0 HM0]. set (M := fun c => if decide (c < length ws) then M0 c else []).
    assert (HM : forall c, (forall w', ws !! c = Some w' -> n_dest w' = Terminal e -> leads c (M c)) /\ ((forall w', ws !! c = Some w' -> n_dest w' <> Terminal e) -> M c = [])).
    { intros c. unfold M. destruct (decide (c < length ws)) as [Hc|Hc]; [apply HM0; exact Hc|]. split; [|reflexivity]. intros w' Hw'. apply lookup_lt_Some in Hw'. lia. }
    clearbody M. clear M0 HM0 Hb.
    set (R := fun c (x : nat * str) (t : str) => exists w' t0, ws !! c = Some w' /\ n_dest w' = Terminal e /\ part_way x.1 x.2 c t0 /\ t = line_bytes a (n_as w') t0 /\ nl ∉ t0).
    destruct (merge R (log e) M) as (mm & Hmm & HofM).
    { intros c. fold (of_writer c (log e)). destruct (HM c) as [H1 H2]. assert (Hcase : (exists w', ws !! c = Some w' /\ n_dest w' = Terminal e) \/ forall w', ws !! c = Some w' -> n_dest w' <> Terminal e).
      { destruct (ws !! c) as [wc|]; [|right; intros w' H; discriminate H]. destruct (n_dest wc) as [e'|k] eqn:Hd; [|right; intros w' [= <-]; congruence]. destruct (decide (e' = e)) as [->|Hk]; [left; eauto|right; intros w' [= <-]; congruence]. }
      destruct Hcase as [(w' & Hw' & Hd')|Hno].
      - rewrite (co_terminal _ _ _ _ _ _ Hco c w' e Hw' Hd'). destruct (H1 w' Hw' Hd') as (Hf2 & _ & _ & Hnl). clear -Hf2 Hnl Hw' Hd'. induction Hf2 as [|x t xs ts Hx Hxs IHx]; simpl; [constructor|]. apply Forall_cons in Hnl as [Hn1 Hn2]. constructor; [|apply IHx; exact Hn2]. exists w', t. auto.
      - rewrite (H2 Hno). destruct (of_writer c (log e)) as [|l r] eqn:E; [constructor|]. exfalso. assert (Hin : l ∈ of_writer c (log e)) by (rewrite E; left). apply elem_of_writer in Hin. destruct (co_log _ _ _ _ _ _ Hco e _ _ Hin) as (w' & Hw' & Hd'). eapply Hno; eassumption. }
    assert (Hfrom : forall c x, (c, x) ∈ mm -> exists w', ws !! c = Some w' /\ n_dest w' = Terminal e /\ x ∈ M c).
    { intros c x Hx. assert (Hin : x ∈ M c) by (rewrite <- HofM; apply elem_of_writer; exact Hx). apply elem_of_list_lookup_1 in Hx as [k Hk]. destruct (Forall2_lookup_l _ _ _ _ _ Hmm Hk) as ([c' t] & _ & Ec & (w' & t0 & Hw' & Hd' & _)). simpl in *. subst. eauto. }
    assert (Hund : forall c x l, (c, (x, l)) ∈ mm -> under ws x c).
    { intros c x l Hx. destruct (Hfrom _ _ Hx) as (w' & Hw' & Hd' & Hin). destruct (proj1 (HM c) w' Hw' Hd') as (Hf2 & _). apply elem_of_list_lookup_1 in Hin as [k Hk]. destruct (Forall2_lookup_l _ _ _ _ _ Hf2 Hk) as (t & _ & Hp). apply part_way_under in Hp. exact Hp. }
    assert (Htxt : exists txt, Forall2 (fun x t => carries a ws x.1 x.2 t) mm.*2 txt /\ concat (log e).*2 = concat (map (fun t => t ++ [nl]) txt) /\ Forall (fun t => nl ∉ t) txt).
    { clear -Hmm Hflat. induction Hmm as [|[c x] [c' t] mm ts [E (w' & t0 & Hw' & Hd' & Hp & Et & Hnl)] _ (txt & H1 & H2 & H3)]; simpl; [exists []; repeat constructor|]. simpl in *. subst.
      exists ((w_prefix (n_as w') ++ shown a (w_stripped (n_as w')) t0) :: txt). split; [constructor; [|exact H1]; eapply part_way_carries; [exact Hp|eapply carries_end; eassumption]|]. split; [simpl; unfold line_bytes; rewrite <- !app_assoc; simpl; f_equal; f_equal; f_equal; exact H2|].
      constructor; [|exact H3]. destruct (Hflat _ _ Hw') as [Hp1 Hp2]. rewrite elem_of_app. intros [H|H]; [apply Hp1, H|apply (Hp2 _ Hnl H)]. }
    destruct Htxt as (txt & H1 & H2 & H3). exists mm.*2, txt. split; [exact H1|]. split; [rewrite (co_out _ _ _ _ _ _ Hco); exact H2|]. split; [|split; [|exact H3]].
    - intros i t chunks Hi Hsome (c & w' & Hu & Hc & Hd). rewrite (through c i).
      + rewrite HofM. destruct (proj1 (HM c) w' Hc Hd) as (_ & H0 & _). eapply H0; eassumption.
      + intros c' l Hx. destruct (Hfrom _ _ Hx) as (w'' & Hc' & Hd' & _). eapply (one_end i c' c); [eapply Hund; exact Hx|exact Hu|exact Hc'|exact Hc|exact Hd'|exact Hd].
    - intros i l Hx. apply elem_of_list_fmap in Hx as ([c x] & E & Hx). simpl in E. subst x. destruct (Hfrom _ _ Hx) as (w' & Hw' & Hd' & Hin). destruct (proj1 (HM c) w' Hw' Hd') as (_ & _ & H0 & _). split; [apply (H0 _ _ Hin)|]. exists c, w'. split; [eapply Hund; exact Hx|auto].
  Qed.
End Tree.

(** Prefixes without newline, and [ansi.Strip] not making newlines. *)
Lemma flat_if a ws : (forall i w, ws !! i = Some w -> nl ∉ w_prefix (n_as w)) -> (forall s, nl ∉ s -> nl ∉ a_strip a s) -> flat a ws.
Proof.
  intros Hp Hs i w Hw. split; [eapply Hp; exact Hw|]. intros l Hl. destruct (w_stripped (n_as w)); [|apply C37_no_newline_inside].
  unfold shown, clean_line. apply Hs. revert Hl. induction l as [|c l IH]; simpl; [auto|]. intros H. apply not_elem_of_cons in H as [H1 H2]. destruct (decide (cr ∈ l)); [auto|]. destruct (decide (c = cr)); [exact H2|]. rewrite not_elem_of_cons. auto.
Qed.

(** Blocks in blocks, commands innermost: a terminal gets whole lines. Each is a line of
    one command with the prefixes of all items it is in; of every command there are all
    the lines, in order, and no others. *)
Theorem C72_whole_lines a ws calls src s e : nested ws -> one_block ws -> plumbed ws calls src ->
  (forall i w, ws !! i = Some w -> nl ∉ w_prefix (n_as w)) -> (forall x, nl ∉ x -> nl ∉ a_strip a x) ->
  rtc (nstep a ws) (nstart calls) s -> nfinished s ->
  exists (from : list (nat * str)) (txt : list str),
    lines (ns_out s e) txt /\ ns_out s e = concat (map (fun t => t ++ [nl]) txt) /\
    Forall2 (fun x t => carries a ws x.1 x.2 t) from txt /\
    (forall i t chunks, src i = Some (t, chunks) -> is_Some (ws !! i) -> reaches ws i e -> lines (concat chunks) (of_writer i from)) /\
    (forall i l, (i, l) ∈ from -> src i <> None /\ reaches ws i e).
Proof.
  intros Hn Ho Hp Hpre Hstrip Hr Hf. destruct (C72_nested a ws calls s Hn Ho Hr Hf) as (hist & log & Hco). destruct (terminal a ws Hn (flat_if a ws Hpre Hstrip) calls src Hp (ns_out s) hist log Hco e) as (m & txt & H1 & H2 & H3 & H4 & H5).
  exists m, txt. split; [|split; [exact H2|]; split; [exact H1|]; split; [exact H3|exact H4]]. rewrite H2. clear -H5. induction H5 as [|t txt Ht _ IH]; simpl; [constructor|]. rewrite <- app_assoc. simpl. constructor; assumption.
Qed.
(** A line has one form at the terminal. *)
Theorem C72_one_form a ws i l t t' : carries a ws i l t -> carries a ws i l t' -> t = t'.
Proof.
  intros H. revert t'. induction H as [i w e l Hw Hd|i w j l t Hw Hd H IH]; intros t' H'.
  - inversion H' as [i' w' e' l' Hw' Hd'|i' w' j' l' t0 Hw' Hd' H0]; subst; [|congruence]. assert (w' = w) as -> by congruence. reflexivity.
  - inversion H' as [i' w' e' l' Hw' Hd'|i' w' j' l' t0 Hw' Hd' H0]; subst; [congruence|]. assert (w' = w) as -> by congruence. assert (j' = j) as -> by congruence. apply IH. exact H0.
Qed.


(** ** C73 *)

(** As long as not all is written, somebody can go on. *)
Theorem C73_no_deadlock a ws calls s : nested ws -> (forall t cs i o, calls !! t = Some cs -> (i, o) ∈ cs -> is_Some (ws !! i)) ->
  rtc (nstep a ws) (nstart calls) s -> nfinished s \/ exists s', nstep a ws s s'.
Proof.
  intros Hn Hc Hr. eapply (progress a ws Hn calls s); [|exact Hr]. rewrite Forall_forall. intros cs Hcs. rewrite Forall_forall. intros [i o] Hx. apply elem_of_list_lookup_1 in Hcs as [t Ht]. destruct (Hc t cs i o Ht Hx) as [w Hw]. exists w. exact Hw.
Qed.

(** Numbers compared from the first on. *)
Fixpoint lex (x y : list nat) : Prop :=
  match x, y with
  | a :: x', b :: y' => a < b \/ (a = b /\ lex x' y')
  | _, _ => False
  end.
Lemma lex_acc n : forall x, length x = n -> Acc (fun y x => length y = length x /\ lex y x) x.
Proof.
  induction n as [|n IH]; intros x Hx; [destruct x; [|discriminate Hx]; constructor; intros [|] [_ []]|].
  destruct x as [|b x]; [discriminate Hx|]. simpl in Hx. injection Hx as Hx. revert x Hx. induction (lt_wf b) as [b _ IHb]. intros x Hx.
  pose proof (IH x Hx) as Hacc. induction Hacc as [x _ IHx]. constructor. intros [|c y] [El H]; [destruct H|]. simpl in El. injection El as El. destruct H as [H|[-> H]].
  - apply IHb; [exact H|congruence].
  - apply IHx; [auto|congruence].
Qed.

Section Ends.
  Context (a : ansi_lib) (ws : list nwriter) (Hnest : nested ws).
  (** How much the calls of the writers with mutex [r] have to do. *)
  Definition line_work (ls : list str) : nat := sum_list_with (fun l => S (length l)) ls.
  Definition frame_work (r : nat) (f : frame) : nat :=
    match ws !! f_writer f with Some w => if n_mutex w =? r then S (line_work (f_lines f)) else 0 | None => 0 end.
  Definition thread_work (r : nat) (t : thread) : nat := sum_list_with (frame_work r) (t_stack t).
  Definition work (r : nat) (ts : list thread) : nat := sum_list_with (thread_work r) ts.
  Definition calls_left (ts : list thread) : nat := sum_list_with (fun t => length (t_calls t)) ts.
  Fixpoint works (n : nat) (ts : list thread) : list nat := match n with 0 => [] | S n' => work n' ts :: works n' ts end.

  Lemma sum_insert {A} (f : A -> nat) (l : list A) i x y : l !! i = Some x -> sum_list_with f (<[i := y]> l) + f x = sum_list_with f l + f y.
  Proof. revert i. induction l as [|z l IH]; intros [|i] H; [discriminate H|discriminate H|injection H as ->; simpl; lia|]. simpl. specialize (IH i H). lia. Qed.
  Lemma works_length n ts : length (works n ts) = n.
  Proof. induction n; simpl; auto. Qed.
  Lemma works_less n r ts ts' : r < n -> work r ts' < work r ts -> (forall k, r < k -> work k ts' = work k ts) -> lex (works n ts') (works n ts).
  Proof.
    intros Hr Hlt Heq. induction n as [|n IH]; [lia|]. simpl. destruct (decide (r = n)) as [->|Hne]; [left; exact Hlt|]. right. split; [apply Heq; lia|apply IH; lia].
  Qed.
  Lemma top_work m t cs f rest f' ts : ts !! t = Some (Thread cs (f :: rest)) -> work m (<[t := Thread cs (f' :: rest)]> ts) + frame_work m f = work m ts + frame_work m f'.
  Proof. intros H. pose proof (sum_insert (thread_work m) ts t _ (Thread cs (f' :: rest)) H) as E. unfold work. unfold thread_work at 2 4 in E. simpl in E. lia. Qed.
  Definition bound : nat := S (list_max (map n_mutex ws)).
  Lemma in_bound i w : ws !! i = Some w -> n_mutex w < bound.
  Proof.
    intros Hw. unfold bound. pose proof (proj1 (list_max_le (map n_mutex ws) (list_max (map n_mutex ws))) ltac:(lia)) as H. rewrite Forall_forall in H. assert (n_mutex w <= list_max (map n_mutex ws)); [|lia]. apply H. apply elem_of_list_fmap. exists w. split; [reflexivity|]. eapply elem_of_list_lookup_2. exact Hw.
  Qed.
  Definition rank (s : nstate) : list nat := calls_left (ns_threads s) :: works bound (ns_threads s).
  Lemma less s s' : nstep a ws s s' -> length (rank s') = length (rank s) /\ lex (rank s') (rank s).
  Proof.
    intros H. split; [unfold rank; simpl; rewrite !works_length; reflexivity|]. unfold rank. cbn [lex].
    destruct H as [m p d ts t i o cs w ls p' Ht Hw Hm Hc|m p d ts t cs i l pend rest w j w' ls p' Ht Hw Hd Hw' Hm Hc|m p d ts t cs i c l pend rest w e Ht Hw Hd|m p d ts t cs i pend rest w e Ht Hw Hd|m p d ts t cs i rest w Ht Hw]; cbn [ns_threads].
    - left. pose proof (sum_insert (fun t => length (t_calls t)) ts t _ (Thread cs [Frame i (map (line_bytes a (n_as w)) ls)]) Ht) as E. unfold calls_left. simpl in E. lia.
    - right. split; [pose proof (sum_insert (fun t => length (t_calls t)) ts t _ (Thread cs (Frame j (map (line_bytes a (n_as w')) ls) :: Frame i pend :: rest)) Ht) as E; unfold calls_left; simpl in E; lia|].
      destruct (Hnest _ _ _ Hw Hd) as (x & Hx & Hlt). assert (x = w') as -> by congruence.
      assert (E : forall k, n_mutex w' < k -> work k (<[t := Thread cs (Frame j (map (line_bytes a (n_as w')) ls) :: Frame i pend :: rest)]> ts) + frame_work k (Frame i (l :: pend)) = work k ts + frame_work k (Frame i pend)).
      { intros k Hk. pose proof (sum_insert (thread_work k) ts t _ (Thread cs (Frame j (map (line_bytes a (n_as w')) ls) :: Frame i pend :: rest)) Ht) as E. unfold work. unfold thread_work at 2 4 in E. simpl in E. unfold frame_work at 3 in E. cbn [f_writer] in E. rewrite Hw' in E. destruct (Nat.eqb_spec (n_mutex w') k); [lia|]. lia. }
      apply (works_less _ (n_mutex w)); [eapply in_bound; exact Hw|..].
      + specialize (E (n_mutex w) Hlt). unfold frame_work in E. cbn [f_writer f_lines] in E. rewrite Hw, Nat.eqb_refl in E. unfold line_work in E. simpl in E. lia.
      + intros k Hk. specialize (E k ltac:(lia)). unfold frame_work in E. cbn [f_writer f_lines] in E. rewrite Hw in E. destruct (Nat.eqb_spec (n_mutex w) k); lia.
    - right. split; [pose proof (sum_insert (fun t => length (t_calls t)) ts t _ (Thread cs (Frame i (l :: pend) :: rest)) Ht) as E; unfold calls_left; simpl in E; lia|].
      apply (works_less _ (n_mutex w)); [eapply in_bound; exact Hw|..]; [|intros k Hk]; match goal with |- context [work ?k (<[_ := _]> _)] => pose proof (top_work k t cs _ rest (Frame i (l :: pend)) ts Ht) as E end; unfold frame_work in E; cbn [f_writer f_lines] in E; rewrite Hw in E.
      + rewrite Nat.eqb_refl in E. unfold line_work in E. simpl in E. lia.
      + destruct (Nat.eqb_spec (n_mutex w) k); lia.
    - right. split; [pose proof (sum_insert (fun t => length (t_calls t)) ts t _ (Thread cs (Frame i pend :: rest)) Ht) as E; unfold calls_left; simpl in E; lia|].
      apply (works_less _ (n_mutex w)); [eapply in_bound; exact Hw|..]; [|intros k Hk]; match goal with |- context [work ?k (<[_ := _]> _)] => pose proof (top_work k t cs _ rest (Frame i pend) ts Ht) as E end; unfold frame_work in E; cbn [f_writer f_lines] in E; rewrite Hw in E.
      + rewrite Nat.eqb_refl in E. unfold line_work in E. simpl in E. lia.
      + destruct (Nat.eqb_spec (n_mutex w) k); lia.
    - right. split; [pose proof (sum_insert (fun t => length (t_calls t)) ts t _ (Thread cs rest) Ht) as E; unfold calls_left; simpl in E; lia|].
      assert (E : forall k, work k (<[t := Thread cs rest]> ts) + frame_work k (Frame i []) = work k ts).
      { intros k. pose proof (sum_insert (thread_work k) ts t _ (Thread cs rest) Ht) as E. unfold work. unfold thread_work at 2 4 in E. simpl in E. lia. }
      apply (works_less _ (n_mutex w)); [eapply in_bound; exact Hw|..]; [specialize (E (n_mutex w))|intros k Hk; specialize (E k)]; unfold frame_work in E; cbn [f_writer f_lines] in E; rewrite Hw in E.
      + rewrite Nat.eqb_refl in E. lia.
      + destruct (Nat.eqb_spec (n_mutex w) k); lia.
  Qed.
End Ends.
(** No scheduling goes on for ever. *)
Theorem C73_ends a ws : nested ws -> well_founded (fun s' s => nstep a ws s s').
Proof.
  intros Hn s. pose proof (lex_acc _ (rank ws s) eq_refl) as H. remember (rank ws s) as x eqn:Ex. revert s Ex. induction H as [x _ IH]. intros s ->. constructor. intros s' Hs. eapply IH; [apply (less a ws Hn _ _ Hs)|reflexivity].
Qed.
(** Every scheduling comes to the end of all output. *)
Theorem C73_all_written a ws calls s : nested ws -> (forall t cs i o, calls !! t = Some cs -> (i, o) ∈ cs -> is_Some (ws !! i)) ->
  rtc (nstep a ws) (nstart calls) s -> exists s', rtc (nstep a ws) s s' /\ nfinished s'.
Proof.
  intros Hn Hc. pose proof (C73_ends a ws Hn s) as H. induction H as [s _ IH]. intros Hr. destruct (C73_no_deadlock a ws calls s Hn Hc Hr) as [Hf|[s' Hs]]; [exists s; split; [constructor|exact Hf]|].
  destruct (IH s' Hs) as (s2 & H2 & Hf); [eapply rtc_r; eassumption|]. exists s2. split; [eapply rtc_l; eassumption|exact Hf].
Qed.

(** ** Runs *)
Definition nexec (a : ansi_lib) (ws : list nwriter) (t : nat) (s : nstate) : option nstate :=
  let 'NState m p d ts := s in
  match ts !! t with
  | Some (Thread ((i, o) :: cs) []) =>
      match ws !! i with
      | Some w => match m (n_mutex w) with
        | None => let '(ls, p') := wcall (p i) o in Some (NState (upd m (n_mutex w) (Some t)) (upd p i p') d (<[t := Thread cs [Frame i (map (line_bytes a (n_as w)) ls)]]> ts))
        | _ => None end
      | None => None
      end
  | Some (Thread cs (Frame i [] :: rest)) => match ws !! i with Some w => Some (NState (upd m (n_mutex w) None) p d (<[t := Thread cs rest]> ts)) | None => None end
  | Some (Thread cs (Frame i (l :: pend) :: rest)) =>
      match ws !! i with
      | Some w => match n_dest w with
        | Into j => match ws !! j with
          | Some w' => match m (n_mutex w') with
            | None => let '(ls, p') := wcall (p j) (WWrite l) in Some (NState (upd m (n_mutex w') (Some t)) (upd p j p') d (<[t := Thread cs (Frame j (map (line_bytes a (n_as w')) ls) :: Frame i pend :: rest)]> ts))
            | _ => None end
          | None => None end
        | Terminal e => match l with
          | [] => Some (NState m p d (<[t := Thread cs (Frame i pend :: rest)]> ts))
          | c :: l' => Some (NState m p (upd d e (d e ++ [c])) (<[t := Thread cs (Frame i (l' :: pend) :: rest)]> ts)) end
        end
      | None => None
      end
  | _ => None
  end.
Lemma nexec_step a ws t s s' : nexec a ws t s = Some s' -> nstep a ws s s'.
Proof.
  destruct s as [m p d ts]. simpl. destruct (ts !! t) as [[cs [|[i [|l pend]] rest]]|] eqn:Ht; [destruct cs as [|[i o] cs]; [discriminate|]| | |discriminate].
  - destruct (ws !! i) as [w|] eqn:Hw; [|discriminate]. destruct (m (n_mutex w)) eqn:Hm; [discriminate|]. destruct (wcall (p i) o) as [ls p'] eqn:Hc. intros [= E]; subst s'. eapply n_call; eassumption.
  - assert (Hgoal : (match ws !! i with Some w => Some (NState (upd m (n_mutex w) None) p d (<[t := Thread cs rest]> ts)) | None => None end) = Some s' -> nstep a ws (NState m p d ts) s') by (destruct (ws !! i) as [w|] eqn:Hw; [|discriminate]; intros [= E]; subst s'; eapply n_return; eassumption).
    destruct cs as [|[i0 o0] cs0]; exact Hgoal.
  - destruct cs as [|[i0 o0] cs0]; (destruct (ws !! i) as [w|] eqn:Hw; [|discriminate]; destruct (n_dest w) as [e|j] eqn:Hd;
    [destruct l as [|c l]; intros [= E]; subst s'; [eapply n_written; eassumption|eapply n_byte; eassumption]|
     destruct (ws !! j) as [w'|] eqn:Hw'; [|discriminate]; destruct (m (n_mutex w')) eqn:Hm; [discriminate|]; destruct (process (p j) l) as [ls p'] eqn:Hc; intros [= E]; subst s'; eapply n_inner; eassumption]).
Qed.
(** Goroutine [t] makes as many steps as it can, at most [n]. *)
Fixpoint nturn (a : ansi_lib) (ws : list nwriter) (n t : nat) (s : nstate) : nstate :=
  match n with 0 => s | S n' => match nexec a ws t s with Some s' => nturn a ws n' t s' | None => s end end.
Fixpoint nturns (a : ansi_lib) (ws : list nwriter) (l : list (nat * nat)) (s : nstate) : nstate :=
  match l with [] => s | (t, n) :: r => nturns a ws r (nturn a ws n t s) end.
Lemma nturn_run a ws n t s : rtc (nstep a ws) s (nturn a ws n t s).
Proof. revert s. induction n as [|n IH]; intros s; simpl; [constructor|]. destruct (nexec a ws t s) as [s'|] eqn:E; [|constructor]. eapply rtc_l; [eapply nexec_step; exact E|apply IH]. Qed.
Lemma nturns_run a ws l s : rtc (nstep a ws) s (nturns a ws l s).
Proof. revert s. induction l as [|[t n] l IH]; intros s; simpl; [constructor|]. etransitivity; [apply nturn_run|apply IH]. Qed.

(** A command that ends without newline before an inner block of the same item: its last
    line and the first line of the block become one. *)
Definition merging_ws : list nwriter := [NWriter (Writer (lit "[o] ") 0 false) (Terminal 1) 0; NWriter (Writer (lit "[i] ") 0 false) (Into 0) 1].
Definition merging_calls : list (list (nat * wop)) := [[(0, WWrite (lit "first")); (0, WFlush)]; [(1, WWrite (lit "second" ++ [nl])); (1, WFlush)]].
Theorem C72_last_line_refuted : exists s, nested merging_ws /\ one_block merging_ws /\ rtc (nstep plain_lib merging_ws) (nstart merging_calls) s /\ nfinished s /\
  ns_out s 1 = lit "[o] first[i] second" ++ [nl].
Proof.
  exists (nturns plain_lib merging_ws [(0, 2); (1, 100); (0, 100)] (nstart merging_calls)). split; [|split; [|split; [apply nturns_run|split; [vm_compute; repeat constructor|vm_compute; reflexivity]]]].
  - intros [|[|i]] w j H Hd; simpl in H; [injection H as <-; discriminate Hd|injection H as <-; injection Hd as <-|discriminate H]. eexists. split; [reflexivity|simpl; lia].
  - intros [|[|i]] [|[|j]] w w' e H H' Hd Hd'; simpl in H, H'; try discriminate H; try discriminate H'; injection H as <-; injection H' as <-; try discriminate Hd; try discriminate Hd'; reflexivity.
Qed.

(** Two items, the second a block of two: lines in pieces, goroutines in turns. *)
Definition nest_ws : list nwriter :=
  [NWriter (Writer (lit "[a] ") 0 false) (Terminal 1) 0; NWriter (Writer (lit "[b] ") 0 false) (Terminal 1) 0;
   NWriter (Writer (lit "[x] ") 0 false) (Into 1) 1; NWriter (Writer (lit "[y] ") 0 false) (Into 1) 1].
Definition nest_src (i : nat) : option (nat * list str) :=
  match i with
  | 0 => Some (0, [lit "1" ++ [nl] ++ lit "2"; lit "3"])
  | 2 => Some (2, [lit "p"; lit "q" ++ [nl]; lit "r"])
  | 3 => Some (3, [lit "s" ++ [nl]])
  | _ => None
  end.
Definition nest_calls : list (list (nat * wop)) :=
  [[(0, WWrite (lit "1" ++ [nl] ++ lit "2")); (0, WWrite (lit "3")); (0, WFlush)]; [(1, WFlush)];
   [(2, WWrite (lit "p")); (2, WWrite (lit "q" ++ [nl])); (2, WWrite (lit "r")); (2, WFlush)]; [(3, WWrite (lit "s" ++ [nl])); (3, WFlush)]].
Example C72_met : nested nest_ws /\ one_block nest_ws /\ plumbed nest_ws nest_calls nest_src /\
  (forall i w, nest_ws !! i = Some w -> nl ∉ w_prefix (n_as w)) /\ (forall x, nl ∉ x -> nl ∉ a_strip plain_lib x) /\
  (forall t cs i o, nest_calls !! t = Some cs -> (i, o) ∈ cs -> is_Some (nest_ws !! i)) /\
  exists s, rtc (nstep plain_lib nest_ws) (nstart nest_calls) s /\ nfinished s /\
    ns_out s 1 = lit "[a] 1" ++ [nl] ++ lit "[b] [x] pq" ++ [nl] ++ lit "[a] 23" ++ [nl] ++ lit "[b] [y] s" ++ [nl] ++ lit "[b] [x] r" ++ [nl].
Proof.
  split; [|split; [|split; [|split; [|split; [|split]]]]].
  - intros [|[|[|[|i]]]] w j H Hd; simpl in H; try discriminate H; injection H as <-; try discriminate Hd; injection Hd as <-; (eexists; split; [reflexivity|simpl; lia]).
  - intros [|[|[|[|i]]]] [|[|[|[|j]]]] w w' e H H' Hd Hd'; simpl in H, H'; try discriminate H; try discriminate H'; injection H as <-; injection H' as <-; try discriminate Hd; try discriminate Hd'; reflexivity.
  - intros [|[|[|[|i]]]] w H; simpl in H; try discriminate H; injection H as <-; cbn [nest_src].
    + split; [intros [|[|[|[|c]]]] w' H; simpl in H; try discriminate H; injection H as <-; discriminate|]. split; [eexists; split; reflexivity|]. intros [|[|[|[|t]]]] cs H Hne; simpl in H; try discriminate H; injection H as <-; try reflexivity; congruence.
    + intros [|[|[|[|t]]]] cs H; simpl in H; try discriminate H; injection H as <-; repeat constructor.
    + split; [intros [|[|[|[|c]]]] w' H; simpl in H; try discriminate H; injection H as <-; discriminate|]. split; [eexists; split; reflexivity|]. intros [|[|[|[|t]]]] cs H Hne; simpl in H; try discriminate H; injection H as <-; try reflexivity; congruence.
    + split; [intros [|[|[|[|c]]]] w' H; simpl in H; try discriminate H; injection H as <-; discriminate|]. split; [eexists; split; reflexivity|]. intros [|[|[|[|t]]]] cs H Hne; simpl in H; try discriminate H; injection H as <-; try reflexivity; congruence.
  - intros [|[|[|[|i]]]] w H; simpl in H; try discriminate H; injection H as <-; intros Hb; pose proof (bool_decide_eq_true_2 _ Hb) as Hc; vm_compute in Hc; discriminate Hc.
  - intros x Hx. exact Hx.
  - intros [|[|[|[|t]]]] cs i o H Hin; simpl in H; try discriminate H; injection H as <-; repeat (apply elem_of_cons in Hin as [[= -> ->]|Hin]; [eexists; reflexivity|]); apply elem_of_nil in Hin as [].
  - exists (nturns plain_lib nest_ws [(2, 3); (0, 9); (2, 15); (0, 100); (3, 100); (2, 100); (1, 10)] (nstart nest_calls)). split; [apply nturns_run|]. split; [vm_compute; repeat constructor|vm_compute; reflexivity].
Qed.

Print Assumptions C72_nested.
Print Assumptions C72_whole_lines.
Print Assumptions C72_one_form.
Print Assumptions C72_last_line_refuted.
Print Assumptions C73_no_deadlock.
Print Assumptions C73_ends.
Print Assumptions C73_all_written.
