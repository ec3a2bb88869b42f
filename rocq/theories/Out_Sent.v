(** The messages of blocks are orderly, however the goroutines are mixed. *)
From Verif Require Import Base Utf8_Model Utf8_Spec Utf8_Proof Out_Model Out_Spec Out_Proof Out_View.

Definition proper (P : list str) (ms : list msg) : Prop := orderly P ms /\ heard P ms.
Lemma heard_app P a b : heard P (a ++ b) <-> heard P a /\ heard (there P a) b.
Proof. revert P. induction a as [|m a IH]; intros P; [simpl; tauto|]. rewrite <- app_comm_cons. cbn [heard]. rewrite IH. rewrite (there_app P [m] a : there P (m :: a) = _). tauto. Qed.
Lemma proper_app P a b : proper P (a ++ b) <-> proper P a /\ proper (there P a) b.
Proof. unfold proper. rewrite orderly_app, heard_app. tauto. Qed.
Lemma proper_cons P m r : proper P (m :: r) <-> proper P [m] /\ proper (there P [m]) r.
Proof. exact (proper_app P [m] r). Qed.

(** Messages that only deal with the tree of [k]. *)
Definition local1 (k : str) (m : msg) : Prop :=
  match m with
  | MRegister key parent => in_tree k parent /\ below k key /\ below parent key
  | MStart j | MOutput j _ | MDone j _ | MClear j => in_tree k j
  | MAllDone | MCtrlC => False
  end.
Definition local (k : str) (t : list msg) : Prop := Forall (local1 k) t.
Definition same_in (k : str) (P P' : list str) : Prop := forall x, in_tree k x -> (x ∈ P <-> x ∈ P').

Lemma tree_below a b c : in_tree a b -> below b c -> below a c.
Proof. intros [->|H] Hb; [exact Hb|eapply below_trans; eassumption]. Qed.
Lemma tree_tree a b c : in_tree a b -> in_tree b c -> in_tree a c.
Proof. intros H [->|Hb]; [exact H|right; eapply tree_below; eassumption]. Qed.

Lemma there1 P m x : x ∈ there P [m] <-> match m with MRegister key _ => x = key \/ x ∈ P | MClear a => x ∈ P /\ ~ below a x | _ => x ∈ P end.
Proof.
  destruct m; cbn [there]; try tauto; [apply elem_of_cons|]. rewrite elem_of_list_In, filter_In, <- elem_of_list_In, negb_true_iff. split; intros [H1 H2]; (split; [exact H1|]).
  - intros Hb. apply belowb_spec in Hb. congruence.
  - destruct (belowb key x) eqn:E; [|reflexivity]. apply belowb_spec in E. contradiction.
Qed.
Lemma same_step k P P' m : local1 k m -> same_in k P P' -> same_in k (there P [m]) (there P' [m]).
Proof. intros Hl Hs x Hx. rewrite !there1. specialize (Hs x Hx). destruct m; tauto. Qed.
Lemma same_steps k P P' t : local k t -> same_in k P P' -> same_in k (there P t) (there P' t).
Proof.
  revert P P'. induction t as [|m t IH]; intros P P' Hl Hs; [exact Hs|]. inversion Hl; subst. change (m :: t) with ([m] ++ t). rewrite !there_app. apply IH; [assumption|apply same_step; assumption].
Qed.
Lemma proper_same k P P' t : local k t -> same_in k P P' -> proper P t -> proper P' t.
Proof.
  revert P P'. induction t as [|m t IH]; intros P P' Hl Hs Hp; [exact Hp|]. inversion Hl as [|? ? Hm Ht]; subst. apply proper_cons in Hp as [H1 H2]. apply proper_cons. split; [|exact (IH _ _ Ht (same_step _ _ _ _ Hm Hs) H2)].
  destruct m as [key parent|j|j line|j e|j| |]; unfold proper in *; simpl in *; try tauto.
  - destruct Hm as (Hm1 & Hm2 & Hm3). destruct H1 as ((Hj & Hne & Hin & Hnot & _) & _). split; [|tauto]. split; [exact Hj|]. split; [exact Hne|]. split; [apply (Hs parent Hm1); exact Hin|]. split; [|exact Logic.I].
    intros H. apply Hnot. apply (Hs key); [right; exact Hm2|exact H].
  - split; [tauto|]. split; [|tauto]. apply (Hs j Hm). tauto.
  - split; [tauto|]. split; [|tauto]. apply (Hs j Hm). tauto.
  - split; [tauto|]. split; [|tauto]. apply (Hs j Hm). tauto.
  - split; [tauto|]. split; [|tauto]. apply (Hs j Hm). tauto.
Qed.
(** Messages about one tree change nothing outside. *)
Lemma outside_step k P m x : local1 k m -> ~ in_tree k x -> (x ∈ there P [m] <-> x ∈ P).
Proof.
  intros Hl Hx. rewrite there1. destruct m; try tauto.
  - destruct Hl as (_ & Hl & _). split; [intros [->|H]; [exfalso; apply Hx; right; exact Hl|exact H]|auto].
  - simpl in Hl. split; [tauto|]. intros H. split; [exact H|]. intros Hb. apply Hx. right. eapply tree_below; eassumption.
Qed.
Definition apart (a b : str) : Prop := forall x, in_tree a x -> in_tree b x -> False.
Lemma apart_same a b P m : apart a b -> local1 a m -> same_in b P (there P [m]).
Proof. intros Ha Hl x Hx. symmetry. apply (outside_step a); [exact Hl|]. intros H. exact (Ha x H Hx). Qed.

(** Mixing local traces of trees that are apart. *)
Section Mix.
  Context (key : nat -> str).
  Lemma mix_proper ts ms P : (forall i j, i <> j -> apart (key i) (key j)) -> (forall i t, ts !! i = Some t -> local (key i) t) -> mix ts ms ->
    (forall i t, ts !! i = Some t -> proper P t) ->
    proper P ms /\ (forall i t, ts !! i = Some t -> same_in (key i) (there P t) (there P ms)) /\
    (forall x, (forall i t, ts !! i = Some t -> ~ in_tree (key i) x) -> (x ∈ there P ms <-> x ∈ P)) /\
    Forall (fun m => exists i, i < length ts /\ local1 (key i) m) ms.
  Proof.
    intros Hap Hl Hm. revert P Hl. induction Hm as [ts Hnil|ts i m t ms Hi Hm IH]; intros P Hl Hp.
    - split; [split; exact Logic.I|]. split; [|split; [reflexivity|constructor]]. intros i t Hi. rewrite Forall_lookup in Hnil. rewrite (Hnil _ _ Hi). intros x _. reflexivity.
    - pose proof (Hl _ _ Hi) as Hli. inversion Hli as [|? ? Hlm Hlt]; subst. pose proof (proj1 (proper_cons _ _ _) (Hp _ _ Hi)) as [Hp1 Hp2].
      assert (Hi' : i < length ts) by (eapply lookup_lt_Some; exact Hi).
      destruct (IH (there P [m])) as (I1 & I2 & I3 & I4).
      + intros j u Hj. destruct (decide (i = j)) as [<-|Hne]; [rewrite list_lookup_insert in Hj by exact Hi'; injection Hj as <-; exact Hlt|rewrite list_lookup_insert_ne in Hj by exact Hne; exact (Hl _ _ Hj)].
      + intros j u Hj. destruct (decide (i = j)) as [<-|Hne]; [rewrite list_lookup_insert in Hj by exact Hi'; injection Hj as <-; exact Hp2|]. rewrite list_lookup_insert_ne in Hj by exact Hne.
        apply (proper_same (key j) P); [exact (Hl _ _ Hj)| |exact (Hp _ _ Hj)]. apply (apart_same (key i)); [apply Hap; exact Hne|exact Hlm].
      + change (m :: ms) with ([m] ++ ms). rewrite proper_app. split; [split; assumption|]. rewrite there_app. rewrite insert_length in I4. split; [|split].
        * intros j u Hj x Hx. destruct (decide (i = j)) as [<-|Hne].
          -- rewrite Hi in Hj. injection Hj as <-. rewrite (there_app P [m] t : there P (m :: t) = _). apply (I2 i t); [rewrite list_lookup_insert by exact Hi'; reflexivity|exact Hx].
          -- etransitivity; [|apply (I2 j u); [rewrite list_lookup_insert_ne by exact Hne; exact Hj|exact Hx]]. apply (same_steps (key j)); [exact (Hl _ _ Hj)| |exact Hx]. apply (apart_same (key i)); [apply Hap; exact Hne|exact Hlm].
        * intros x Hx. rewrite I3; [apply (outside_step (key i)); [exact Hlm|exact (Hx _ _ Hi)]|]. intros j u Hj. destruct (decide (i = j)) as [<-|Hne]; [exact (Hx _ _ Hi)|rewrite list_lookup_insert_ne in Hj by exact Hne; exact (Hx _ _ Hj)].
        * constructor; [|exact I4]. eauto.
  Qed.
End Mix.

Lemma child_below k i : below k (child k i).
Proof. apply below_child. Qed.
Lemma dotless_apart (p a b : str) : "."%char ∉ a -> "."%char ∉ b -> a <> b -> apart (p ++ a) (p ++ b).
Proof.
  intros Ha Hb Hne x Hx Hy.
  assert (Hcase : forall c, in_tree (p ++ c) x -> exists r, x = p ++ c ++ r /\ (r = [] \/ exists r', r = "."%char :: r')).
  { intros c [->|[r ->]]; [exists []; rewrite app_nil_r; auto|exists ("."%char :: r); rewrite <- app_assoc; eauto]. }
  destruct (Hcase _ Hx) as (r & Er & Hr), (Hcase _ Hy) as (q & Eq & Hq). rewrite Er in Eq. apply app_inv_head in Eq.
  destruct Hr as [-> | [r' ->]], Hq as [-> | [q' ->]].
  - rewrite !app_nil_r in Eq. contradiction.
  - rewrite app_nil_r in Eq. apply Ha. rewrite Eq. apply elem_of_app. right. left.
  - rewrite app_nil_r in Eq. apply Hb. rewrite <- Eq. apply elem_of_app. right. left.
  - apply dot_split in Eq as [Eq _]; [contradiction|exact Ha|exact Hb].
Qed.
Lemma children_apart k i j : i <> j -> apart (child k i) (child k j).
Proof.
  intros Hij. unfold child. replace (k ++ "."%char :: itoa i) with ((k ++ lit ".") ++ itoa i) by (rewrite <- app_assoc; reflexivity). replace (k ++ "."%char :: itoa j) with ((k ++ lit ".") ++ itoa j) by (rewrite <- app_assoc; reflexivity).
  apply dotless_apart; [apply itoa_no_dot|apply itoa_no_dot|]. intros E. apply itoa_inj in E. contradiction.
Qed.
Lemma roots_apart i j : i <> j -> apart (item_key i) (item_key j).
Proof. intros Hij. apply (dotless_apart []); [apply itoa_no_dot|apply itoa_no_dot|]. intros E. apply itoa_inj in E. contradiction. Qed.

(** [k] is there and nothing below it. *)
Definition alone (k : str) (P : list str) : Prop := k <> [] /\ k ∈ P /\ forall x, below k x -> x ∉ P.
Definition good (k : str) (t : list msg) : Prop := local k t /\ forall P, alone k P -> proper P t /\ alone k (there P t).

Lemma local_up k j t : in_tree k j -> local j t -> local k t.
Proof.
  intros Hj Ht. eapply Forall_impl; [exact Ht|]. clear Ht. intros [] H; simpl in *; try exact H; try (eapply tree_tree; eassumption).
  destruct H as (H1 & H2 & H3). split; [eapply tree_tree; eassumption|]. split; [eapply tree_below; eassumption|exact H3].
Qed.
Lemma regs_there k l P x : x ∈ there P (map (fun i => MRegister (child k i) k) l) <-> x ∈ P \/ exists i, i ∈ l /\ x = child k i.
Proof.
  revert P. induction l as [|i l IH]; intros P; simpl.
  - split; [auto|]. intros [H|(i & H & _)]; [exact H|apply elem_of_nil in H as []].
  - rewrite IH, elem_of_cons. split.
    + intros [[->|H]|(j & H1 & H2)]; [right; exists i; split; [left|reflexivity]|left; exact H|right; exists j; split; [right; exact H1|exact H2]].
    + intros [H|(j & H1 & H2)]; [left; right; exact H|]. apply elem_of_cons in H1 as [->|H1]; [left; left; exact H2|right; eauto].
Qed.
Lemma regs_proper k l P : k <> [] -> NoDup l -> k ∈ P -> (forall i, i ∈ l -> child k i ∉ P) -> proper P (map (fun i => MRegister (child k i) k) l).
Proof.
  intros Hk. revert P. induction l as [|i l IH]; intros P Hnd Hin Hno; [split; exact Logic.I|]. inversion Hnd as [|? ? Hi Hnd']; subst. cbn [map]. apply proper_cons. split.
  - split; simpl; [|tauto]. split; [exists i; reflexivity|]. split; [exact Hk|]. split; [exact Hin|]. split; [apply Hno; left|exact Logic.I].
  - apply IH; [exact Hnd'|cbn [there]; right; exact Hin|]. intros j Hj. cbn [there]. apply not_elem_of_cons. split; [|apply Hno; right; exact Hj].
    intros E. apply app_inv_head in E. injection E as E. apply itoa_inj in E as ->. contradiction.
Qed.

Scheme item_ind := Minimality for item_msgs Sort Prop
  with body_ind := Minimality for body_msgs Sort Prop
  with items_ind := Minimality for items_msgs Sort Prop.
Combined Scheme msgs_ind from item_ind, body_ind, items_ind.

Lemma msgs_good : (forall k t, item_msgs k t -> good k t) /\ (forall k t, body_msgs k t -> good k t) /\
  (forall k i ts, items_msgs k i ts -> forall j t, ts !! j = Some t -> good (child k (i + j)) t).
Proof.
  apply msgs_ind.
  - intros k e. split; [constructor; [left; reflexivity|constructor]|]. intros P HP. split; [split; simpl; [exact Logic.I|]; split; [apply HP|exact Logic.I]|exact HP].
  - intros k body e _ [Hl Hb]. split.
    + constructor; [left; reflexivity|]. apply Forall_app. split; [exact Hl|]. constructor; [left; reflexivity|constructor].
    + intros P HP. change (MStart k :: body ++ [MDone k e]) with ([MStart k] ++ body ++ [MDone k e]). rewrite !proper_app, !there_app. simpl (there P [MStart k]). destruct (Hb P HP) as [Hp Ha].
      split; [|exact Ha]. split; [split; simpl; [exact Logic.I|]; split; [apply HP|exact Logic.I]|]. split; [exact Hp|]. split; simpl; [exact Logic.I|]. split; [apply Ha|exact Logic.I].
  - intros k. split; [constructor|]. intros P HP. split; [split; exact Logic.I|exact HP].
  - intros k line t _ [Hl Hb]. split; [constructor; [left; reflexivity|exact Hl]|]. intros P HP. destruct (Hb P HP) as [Hp Ha]. split; [|exact Ha]. apply proper_cons. split; [|exact Hp]. split; simpl; [exact Logic.I|]. split; [apply HP|exact Logic.I].
  - intros k ts ms t _ Hts Hmix _ [Hl Hb]. simpl in Hts. pose proof (fun P => mix_proper (child k) ts ms P (children_apart k) (fun i t Hi => proj1 (Hts i t Hi)) Hmix) as Hmp.
    split.
    + apply Forall_app. split; [|apply Forall_app; split; [|constructor; [left; reflexivity|exact Hl]]].
      * apply Forall_map. apply Forall_forall. intros i _. simpl. split; [left; reflexivity|]. split; apply child_below.
      * assert (Hloc : Forall (fun m => exists i, i < length ts /\ local1 (child k i) m) ms).
        { apply (Hmp (k :: map (child k) (seq 0 (length ts)))). intros i u Hi. apply (Hts i u Hi). split; [destruct k; discriminate|]. split.
          - right. apply elem_of_list_In, in_map_iff. exists i. split; [reflexivity|]. apply in_seq. pose proof (lookup_lt_Some _ _ _ Hi). lia.
          - intros x Hx Hin. apply elem_of_cons in Hin as [->|Hin].
            + apply (below_irrefl k). eapply below_trans; [apply child_below|exact Hx].
            + apply elem_of_list_In, in_map_iff in Hin as (j & <- & _). destruct (decide (i = j)) as [->|Hne]; [exact (below_irrefl _ Hx)|]. exact (children_apart k i j Hne (child k j) (or_intror Hx) (or_introl eq_refl)). }
        eapply Forall_impl; [exact Hloc|]. intros m (i & _ & Hm). assert (Hlm : local (child k i) [m]) by (constructor; [exact Hm|constructor]). apply (local_up k) in Hlm; [inversion Hlm; assumption|right; apply child_below].
    + intros P HP. destruct HP as (Hk & Hin & Hno). set (regs := map _ _). set (P1 := there P regs).
      assert (HP1 : forall x, x ∈ P1 <-> x ∈ P \/ exists i, i < length ts /\ x = child k i).
      { intros x. unfold P1, regs. rewrite regs_there. split; (intros [H|(i & H1 & H2)]; [left; exact H|right; exists i; split; [|exact H2]]); [apply elem_of_seq in H1; lia|apply elem_of_seq; lia]. }
      destruct (Hmp P1) as (M1 & M2 & M3 & M4).
      { intros i u Hi. apply (Hts i u Hi). split; [unfold child; destruct k; discriminate|]. split; [apply HP1; right; exists i; split; [eapply lookup_lt_Some; exact Hi|reflexivity]|].
        intros x Hx H. apply HP1 in H as [H|(j & Hj & ->)]; [apply (Hno x); [eapply below_trans; [apply child_below|exact Hx]|exact H]|].
        destruct (decide (i = j)) as [->|Hne]; [exact (below_irrefl _ Hx)|]. exact (children_apart k i j Hne (child k j) (or_intror Hx) (or_introl eq_refl)). }
      assert (Hkout : forall i, ~ in_tree (child k i) k). { intros i [E|H]; [apply (below_irrefl k); rewrite E at 2; apply child_below|]. apply (below_irrefl k). eapply below_trans; [apply child_below|exact H]. }
      set (P2 := there P1 ms). assert (Hk2 : k ∈ P2). { apply M3; [intros i u _; apply Hkout|]. apply HP1. left. exact Hin. }
      assert (Ha : alone k (there P2 [MClear k])). { split; [exact Hk|]. split; [apply there1; split; [exact Hk2|apply below_irrefl]|]. intros x Hx H. apply there1 in H as [_ H]. contradiction. }
      destruct (Hb _ Ha) as [B1 B2]. change (regs ++ ms ++ MClear k :: t) with (regs ++ ms ++ [MClear k] ++ t). rewrite !proper_app, !there_app. fold P1. fold P2. split; [|exact B2].
      split; [apply regs_proper; [exact Hk|apply NoDup_seq|exact Hin|intros i _; apply Hno, child_below]|]. split; [exact M1|]. split; [|exact B1]. split; simpl; [exact Logic.I|]. split; [exact Hk2|exact Logic.I].
  - intros k i j t H. discriminate H.
  - intros k i t ts _ Ht _ IH j u Hj. destruct j as [|j]; simpl in Hj; [injection Hj as <-; rewrite Nat.add_0_r; exact Ht|]. replace (i + S j) with (S i + j) by lia. apply IH. exact Hj.
Qed.
Lemma run_good ts ms : run_msgs ts ms -> proper (roots (length ts)) ms /\ (forall i t, ts !! i = Some t -> local (item_key i) t) /\ (forall k, k ∈ there (roots (length ts)) ms <-> k ∈ roots (length ts)).
Proof.
  intros [Hts (ms0 & Hmix & ->)]. assert (Hg : forall i t, ts !! i = Some t -> good (item_key i) t) by (intros i t Hi; exact (proj1 msgs_good _ _ (Hts _ _ Hi))).
  assert (Hal : forall i, i < length ts -> alone (item_key i) (roots (length ts))).
  { intros i Hi. split; [apply itoa_ne|]. split; [apply roots_spec; eauto|]. intros x [r ->] H. apply roots_spec in H as (j & _ & E). apply (itoa_no_dot j). unfold item_key in E. rewrite <- E. apply elem_of_app. right. left. }
  destruct (mix_proper item_key ts ms0 (roots (length ts)) roots_apart (fun i t Hi => proj1 (Hg i t Hi)) Hmix) as (M1 & M2 & M3 & M4).
  { intros i t Hi. apply (Hg i t Hi), Hal. eapply lookup_lt_Some. exact Hi. }
  split; [apply proper_app; split; [exact M1|split; simpl; auto]|]. split; [intros i t Hi; apply (Hg i t Hi)|]. intros k. rewrite there_app. cbn [there].
  destruct (existsb (fun i => inb (item_key i) k) (seq 0 (length ts))) eqn:E.
  - apply existsb_exists in E as (i & Hi & E). apply in_seq in Hi. apply inb_true in E. destruct (lookup_lt_is_Some_2 ts i) as [t Ht]; [lia|]. rewrite <- (M2 i t Ht k E).
    destruct (Hg i t Ht) as [_ Hgi]. destruct (Hgi _ (Hal i ltac:(lia))) as [_ (_ & A1 & A2)]. destruct (Hal i ltac:(lia)) as (_ & B1 & B2). destruct E as [->|E]; [tauto|]. specialize (A2 k E). specialize (B2 k E). tauto.
  - apply M3. intros i t Hi Hk. assert (existsb (fun i => inb (item_key i) k) (seq 0 (length ts)) = true); [|congruence]. apply existsb_exists. exists i. split; [apply in_seq; pose proof (lookup_lt_Some _ _ _ Hi); lia|apply inb_true; exact Hk].
Qed.

(** ** What an item shows depends only on its own goroutine *)
Definition tells (k : str) (m : msg) : bool := restarts k m || match m with MOutput j _ => bool_decide (j = k) | _ => false end.
Lemma existsb_tells k ms : existsb (restarts k) (List.filter (tells k) ms) = existsb (restarts k) ms.
Proof. induction ms as [|m ms IH]; [reflexivity|]. simpl. unfold tells at 1. destruct (restarts k m) eqn:E; simpl; [rewrite E; reflexivity|]. case_match; simpl; [rewrite E|]; exact IH. Qed.
Lemma outputs_tells k ms : outputs k (List.filter (tells k) ms) = outputs k ms.
Proof.
  induction ms as [|m ms IH]; [reflexivity|]. simpl. unfold tells at 1. destruct m; simpl; try (case_match; simpl; rewrite ?IH; reflexivity); try exact IH.
  destruct (decide (key = k)); [rewrite bool_decide_true by assumption|rewrite bool_decide_false by assumption]; simpl; [rewrite decide_True by assumption; rewrite IH; reflexivity|exact IH].
Qed.
Lemma shown_tells k ms : outputs k (since (restarts k) (List.filter (tells k) ms)) = outputs k (since (restarts k) ms).
Proof.
  induction ms as [|m ms IH]; [reflexivity|]. cbn [List.filter since]. destruct (tells k m) eqn:Et.
  - cbn [since]. rewrite existsb_tells. destruct (existsb _ ms); [exact IH|]. destruct (restarts k m); [apply outputs_tells|]. pose proof (outputs_tells k (m :: ms)) as H. cbn [List.filter] in H. rewrite Et in H. exact H.
  - destruct (existsb (restarts k) ms) eqn:E; [exact IH|]. unfold tells in Et. apply orb_false_iff in Et as [-> Et]. rewrite since_none by (rewrite existsb_tells; exact E). rewrite outputs_tells.
    destruct m; try reflexivity. simpl. apply bool_decide_eq_false in Et. rewrite decide_False by exact Et. reflexivity.
Qed.
Lemma tells_local k j m : local1 j m -> tells k m = true -> in_tree j k.
Proof.
  intros Hl Ht. unfold tells in Ht. destruct m as [key parent|x|x line|x e|x| |]; simpl in *; try discriminate Ht.
  - rewrite orb_false_r in Ht. apply bool_decide_eq_true in Ht. destruct Hl as (H1 & H2 & _). destruct Ht as [<-|[<- _]]; [right; exact H2|exact H1].
  - apply bool_decide_eq_true in Ht as <-. exact Hl.
Qed.
Lemma mix_tells (key : nat -> str) ts ms i t k : (forall i j, i <> j -> apart (key i) (key j)) -> (forall i t, ts !! i = Some t -> local (key i) t) -> mix ts ms -> ts !! i = Some t -> in_tree (key i) k ->
  List.filter (tells k) ms = List.filter (tells k) t.
Proof.
  intros Hap Hl Hm. revert t Hl. induction Hm as [ts Hnil|ts j m u ms Hj Hm IH]; intros t Hl Hi Hk.
  - rewrite Forall_lookup in Hnil. rewrite (Hnil _ _ Hi). reflexivity.
  - assert (Hj' : j < length ts) by (eapply lookup_lt_Some; exact Hj). pose proof (Hl _ _ Hj) as Hlj. inversion Hlj as [|? ? Hlm Hlu]; subst.
    assert (Hl' : forall i0 t0, <[j := u]> ts !! i0 = Some t0 -> local (key i0) t0).
    { intros x v Hx. destruct (decide (j = x)) as [<-|Hne]; [rewrite list_lookup_insert in Hx by exact Hj'; injection Hx as <-; exact Hlu|rewrite list_lookup_insert_ne in Hx by exact Hne; exact (Hl _ _ Hx)]. }
    destruct (decide (j = i)) as [->|Hne].
    + rewrite Hj in Hi. injection Hi as <-. cbn [List.filter]. rewrite (IH u Hl'); [reflexivity|apply list_lookup_insert; exact Hj'|exact Hk].
    + cbn [List.filter]. destruct (tells k m) eqn:Et; [exfalso; exact (Hap j i Hne k (tells_local _ _ _ Hlm Et) Hk)|]. apply IH; [exact Hl'|rewrite list_lookup_insert_ne by exact Hne; exact Hi|exact Hk].
Qed.
Lemma run_tells ts ms i t k : run_msgs ts ms -> ts !! i = Some t -> in_tree (item_key i) k -> outputs k (since (restarts k) ms) = outputs k (since (restarts k) t).
Proof.
  intros Hr Hi Hk. destruct (run_good _ _ Hr) as (_ & Hl & _). destruct Hr as [_ (ms0 & Hmix & ->)]. rewrite <- shown_tells, <- (shown_tells k t), List.filter_app.
  rewrite (mix_tells item_key ts ms0 i t k roots_apart Hl Hmix Hi Hk). simpl. rewrite app_nil_r. reflexivity.
Qed.
