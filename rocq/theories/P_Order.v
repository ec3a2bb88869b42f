(** C74: what an item shows that does things one after another. *)
From Verif Require Import Base Utf8_Model Utf8_Spec Utf8_Proof Out_Model Out_Spec Out_Proof P_Out Nest_Model Nest_Spec Nest_Proof Nest_Hist P_Nest Order_Model Order_Spec Order_Proof.

#[local] Instance wop_eq_dec : EqDecision wop.
Proof. solve_decision. Defined.
#[local] Instance frame_eq_dec : EqDecision frame.
Proof. solve_decision. Defined.
#[local] Instance thread_eq_dec : EqDecision thread.
Proof. solve_decision. Defined.

(** ** Sorted lists are the sequence of their classes *)
Lemma filter_none {A} (f : A -> bool) l : Forall (fun x => f x = false) l -> List.filter f l = [].
Proof. intros H. induction H as [|x l Hx _ IH]; simpl; [reflexivity|]. rewrite Hx. exact IH. Qed.
Lemma classes {A} (idx : A -> nat) (N : nat) (h : list A) : StronglySorted (fun x y => idx x <= idx y) h -> Forall (fun x => idx x < N) h ->
  concat (map (fun k => List.filter (fun x => idx x =? k) h) (seq 0 N)) = h.
Proof.
  intros Hs. induction Hs as [|x h Hs IH Hx]; intros Hn.
  - clear Hn. induction (seq 0 N); simpl; auto.
  - apply Forall_cons in Hn as [Hxn Hn]. specialize (IH Hn). assert (E : seq 0 N = seq 0 (idx x) ++ idx x :: seq (S (idx x)) (N - S (idx x))).
    { replace N with (idx x + S (N - S (idx x))) at 1 by lia. rewrite seq_app. reflexivity. }
    assert (Hlow : forall l, Forall (fun y => idx x <= idx y) l -> concat (map (fun k => List.filter (fun y => idx y =? k) l) (seq 0 (idx x))) = []).
    { intros l Hl. assert (Hz : Forall (fun k => k < idx x) (seq 0 (idx x))) by (apply Forall_seq; intros; lia). clear E IH. induction Hz as [|k ks Hk _ IHk]; [reflexivity|]. simpl. rewrite IHk, app_nil_r. apply filter_none. rewrite Forall_forall in *. intros y Hy. specialize (Hl y Hy). apply Nat.eqb_neq. lia. }
    assert (Hhigh : map (fun k => List.filter (fun y => idx y =? k) (x :: h)) (seq (S (idx x)) (N - S (idx x))) = map (fun k => List.filter (fun y => idx y =? k) h) (seq (S (idx x)) (N - S (idx x)))).
    { apply map_ext_in. intros k Hk. apply in_seq in Hk. simpl. destruct (Nat.eqb_spec (idx x) k); [lia|reflexivity]. }
    rewrite E in *. rewrite !map_app, !concat_app in *. cbn [map] in *. rewrite Hhigh. rewrite (Hlow (x :: h)) by (constructor; [lia|exact Hx]). rewrite (Hlow h Hx) in IH. simpl in *. rewrite Nat.eqb_refl. simpl. f_equal. exact IH.
Qed.
Lemma sorted_lookup {A} (R : A -> A -> Prop) (l : list A) : (forall k1 k2 x y, k1 < k2 -> l !! k1 = Some x -> l !! k2 = Some y -> R x y) -> StronglySorted R l.
Proof.
  induction l as [|x l IH]; intros H; constructor.
  - apply IH. intros k1 k2 y z Hk H1 H2. apply (H (S k1) (S k2)); [lia|exact H1|exact H2].
  - rewrite Forall_forall. intros y Hy. apply elem_of_list_lookup_1 in Hy as [k Hk]. apply (H 0 (S k)); [lia|reflexivity|exact Hk].
Qed.

Section Stages.
  Context (a : ansi_lib) (ws : list nwriter) (calls : list (list (nat * wop))) (before : nat -> nat -> Prop).
  Context (out : nat -> str) (hist : nat -> history) (log : nat -> list (nat * str)) (Hco : comes_out a ws calls out hist log).
  Context (who : nat -> list nat) (Hlen : forall j, length (who j) = length (hist j))
    (Hsrc : forall j k t x o, who j !! k = Some t -> hist j !! k = Some (x, o) -> match x with Direct u => u = t | From c => calls_under ws calls t c end)
    (Hord : forall j k1 k2 t1 t2, k1 < k2 -> who j !! k1 = Some t1 -> who j !! k2 = Some t2 -> ~ before t2 t1).
  Context (j : nat) (stages : list stage) (fl : nat) (Hst : staged ws calls before j stages fl).

  Definition owns (st : stage) (x : source) : bool :=
    match st, x with SCmd t _, Direct u => bool_decide (u = t) | SBlock B, From c => bool_decide (c ∈ B) | _, _ => false end.
  Fixpoint index (l : list stage) (x : source) : nat := match l with [] => 0 | st :: r => if owns st x then 0 else S (index r x) end.
  Lemma index_spec l x : (index l x = length l /\ forall st, st ∈ l -> owns st x = false) \/ (exists st, l !! index l x = Some st /\ owns st x = true).
  Proof.
    induction l as [|st l IH]; simpl; [left; split; [reflexivity|]; intros st H; apply elem_of_nil in H as []|]. destruct (owns st x) eqn:E; [right; exists st; split; [reflexivity|exact E]|].
    destruct IH as [[IH1 IH2]|(st' & H & Ho)]; [left|right; exists st'; auto]. split; [lia|]. intros st' H. apply elem_of_cons in H as [->|H]; auto.
  Qed.
  Lemma owns_unique k k' st st' x : stages !! k = Some st -> stages !! k' = Some st' -> owns st x = true -> owns st' x = true -> k = k'.
  Proof.
    intros H H' Ho Ho'. destruct st as [t ch|B], x as [u|c]; try discriminate Ho; destruct st' as [t' ch'|B']; try discriminate Ho'; apply bool_decide_eq_true in Ho, Ho'.
    - subst. eapply (st_once_cmd _ _ _ _ _ _ Hst); eassumption.
    - eapply (st_once _ _ _ _ _ _ Hst); eassumption.
  Qed.
  (** The flush belongs to no stage, everything else does. *)
  Lemma last_is_flush x o : (x, o) ∈ hist j -> (index stages x = length stages -> x = Direct fl) /\ (x = Direct fl -> index stages x = length stages).
  Proof.
    intros Hx. split.
    - intros E. destruct (index_spec stages x) as [[_ Hno]|(st & H & _)]; [|apply lookup_lt_Some in H; lia]. pose proof (co_nothing_else _ _ _ _ _ _ Hco j x o Hx) as Hs. destruct x as [t|c].
      + destruct (decide (t = fl)) as [->|Ht]; [reflexivity|]. exfalso. apply lookup_lt_is_Some_2 in Hs as [cs Hcs]. pose proof (st_others _ _ _ _ _ _ Hst t cs Hcs Ht) as H0. rewrite <- (co_direct _ _ _ _ _ _ Hco t cs j Hcs) in H0. apply made_by_elem in Hx. rewrite H0 in Hx; [apply elem_of_nil in Hx as []|]. intros ch Hin. specialize (Hno _ Hin). simpl in Hno. apply bool_decide_eq_false in Hno. congruence.
      + destruct Hs as (w & Hw & Hd). destruct (st_inner _ _ _ _ _ _ Hst c w Hw Hd) as (B & HB & Hc). specialize (Hno _ HB). simpl in Hno. apply bool_decide_eq_false in Hno. congruence.
    - intros ->. destruct (index_spec stages (Direct fl)) as [[E _]|(st & H & Ho)]; [exact E|]. destruct st as [t ch|B]; [|discriminate Ho]. simpl in Ho. apply bool_decide_eq_true in Ho. subst t. destruct (st_flush _ _ _ _ _ _ Hst) as (cs & _ & _ & Hno). exfalso. eapply Hno. eapply elem_of_list_lookup_2. exact H.
  Qed.
  Lemma owner_acts k t x o st : who j !! k = Some t -> hist j !! k = Some (x, o) -> owns st x = true -> acts ws calls st t.
  Proof.
    intros Hw Hh Ho. pose proof (Hsrc _ _ _ _ _ Hw Hh) as H. destruct st as [t' ch|B], x as [u|c]; try discriminate Ho; simpl in Ho; apply bool_decide_eq_true in Ho; simpl; [congruence|]. destruct H as (cs & i & o' & Hcs & Hin & Hu). exists c, cs, i, o'. auto.
  Qed.
  Lemma in_order : StronglySorted (fun x y => index stages x.1 <= index stages y.1) (hist j).
  Proof.
    apply sorted_lookup. intros k1 k2 [x o] [y p] Hk Hx Hy. simpl. destruct (lookup_lt_is_Some_2 (who j) k1) as [t1 H1]; [rewrite Hlen; eapply lookup_lt_Some; exact Hx|]. destruct (lookup_lt_is_Some_2 (who j) k2) as [t2 H2]; [rewrite Hlen; eapply lookup_lt_Some; exact Hy|].
    pose proof (Hord _ _ _ _ _ Hk H1 H2) as Hnb. destruct (decide (index stages x <= index stages y)) as [H|H]; [exact H|]. exfalso. apply Hnb.
    destruct (index_spec stages y) as [[Ey _]|(sy & Hsy & Hoy)]; [destruct (index_spec stages x) as [[Ex _]|(sx & Hsx & _)]; [lia|apply lookup_lt_Some in Hsx; lia]|]. pose proof (owner_acts _ _ _ _ _ H2 Hy Hoy) as Hay.
    destruct (index_spec stages x) as [[Ex _]|(sx & Hsx & Hox)].
    - pose proof (proj1 (last_is_flush x o ltac:(eapply elem_of_list_lookup_2; exact Hx)) Ex) as ->. pose proof (Hsrc _ _ _ _ _ H1 Hx) as <-. eapply (st_last _ _ _ _ _ _ Hst); [eapply elem_of_list_lookup_2; exact Hsy|exact Hay].
    - pose proof (owner_acts _ _ _ _ _ H1 Hx Hox) as Hax. eapply (st_order _ _ _ _ _ _ Hst); [exact Hsy|exact Hsx|lia|exact Hay|exact Hax].
  Qed.
  Definition part (k : nat) : history := List.filter (fun e => index stages e.1 =? k) (hist j).
  Lemma index_le x : index stages x <= length stages.
  Proof. destruct (index_spec stages x) as [[E _]|(st & H & _)]; [lia|apply lookup_lt_Some in H; lia]. Qed.
  Lemma parts : hist j = concat (map part (seq 0 (length stages))) ++ part (length stages).
  Proof.
    pose proof (classes (fun e => index stages e.1) (S (length stages)) (hist j) in_order) as H. rewrite seq_S, map_app, concat_app in H. simpl in H. rewrite app_nil_r in H. symmetry. apply H. rewrite Forall_forall. intros [x o] _. simpl. pose proof (index_le x). lia.
  Qed.
  Lemma filter_made x (f : source * wop -> bool) h : (forall e, e ∈ h -> f e = bool_decide (e.1 = x)) -> (List.filter f h).*2 = made_by x h.
  Proof.
    unfold made_by. induction h as [|e h IH]; intros H; [reflexivity|]. simpl. rewrite (H e) by left. pose proof (IH (fun e' He' => H e' ltac:(right; exact He'))) as IH'. destruct (bool_decide (e.1 = x)); simpl; [f_equal|]; exact IH'.
  Qed.
  Lemma part_flush : (part (length stages)).*2 = [WFlush].
  Proof.
    destruct (st_flush _ _ _ _ _ _ Hst) as (cs & Hcs & Hf & _). rewrite <- Hf, <- (co_direct _ _ _ _ _ _ Hco fl cs j Hcs). apply filter_made. intros [x o] Hx. simpl. destruct (last_is_flush x o Hx) as [H1 H2].
    destruct (Nat.eqb_spec (index stages x) (length stages)) as [E|E]; symmetry; [apply bool_decide_eq_true_2; auto|apply bool_decide_eq_false_2; auto].
  Qed.
  Lemma index_is k st x : stages !! k = Some st -> (index stages x =? k) = owns st x.
  Proof.
    intros H. destruct (Nat.eqb_spec (index stages x) k) as [E|E].
    - destruct (index_spec stages x) as [[Ex _]|(st' & H' & Ho)]; [apply lookup_lt_Some in H; lia|]. rewrite E in H'. congruence.
    - destruct (owns st x) eqn:Eo; [|reflexivity]. exfalso. destruct (index_spec stages x) as [[_ Hno]|(st' & H' & Ho)]; [rewrite (Hno st) in Eo; [discriminate Eo|eapply elem_of_list_lookup_2; exact H]|]. apply E. eapply owns_unique; eassumption.
  Qed.
  Lemma part_cmd k t ch : stages !! k = Some (SCmd t ch) -> (part k).*2 = map WWrite ch.
  Proof.
    intros H. destruct (st_cmd _ _ _ _ _ _ Hst t ch ltac:(eapply elem_of_list_lookup_2; exact H)) as (cs & Hcs & E). rewrite <- E, <- (co_direct _ _ _ _ _ _ Hco t cs j Hcs). apply filter_made. intros [[u|c] o] _; simpl; rewrite (index_is k _ _ H); simpl; [apply bool_decide_ext; split; congruence|reflexivity].
  Qed.
  Definition data_of (h : history) : list (nat * str) := omap (fun e => match e with (From c, WWrite d) => Some (c, d) | _ => None end) h.
  Lemma data_of_made c h : (forall x o, (x, o) ∈ h -> match x with From _ => o <> WFlush | _ => True end) -> map WWrite (of_writer c (data_of h)) = made_by (From c) h.
  Proof.
    induction h as [|[x o] h IH]; intros H; [reflexivity|]. assert (IH' := IH (fun y p Hy => H y p ltac:(right; exact Hy))). pose proof (H x o ltac:(left)) as Hx. unfold made_by, of_writer in *. simpl. destruct x as [u|c']; [rewrite bool_decide_eq_false_2 by discriminate; exact IH'|]. destruct o as [d|]; [|congruence]. simpl.
    destruct (Nat.eqb_spec c' c) as [->|Hne]; [rewrite bool_decide_eq_true_2 by reflexivity|rewrite bool_decide_eq_false_2 by congruence]; simpl; [f_equal|]; exact IH'.
  Qed.
  Lemma only_data h : (forall x o, (x, o) ∈ h -> exists c d, x = From c /\ o = WWrite d) -> h.*2 = map WWrite (data_of h).*2.
  Proof. induction h as [|[x o] h IH]; intros H; [reflexivity|]. destruct (H x o ltac:(left)) as (c & d & -> & ->). simpl. f_equal. apply IH. intros y p Hy. apply H. right. exact Hy. Qed.
  Lemma made_filter c f h : (forall o, f (From c, o) = true) -> made_by (From c) (List.filter f h) = made_by (From c) h.
  Proof.
    intros Hf. unfold made_by. induction h as [|[x o] h IH]; [reflexivity|]. simpl. destruct (bool_decide_reflect (x = From c)) as [->|Hne].
    - rewrite Hf. simpl. rewrite bool_decide_eq_true_2 by reflexivity. simpl. f_equal. exact IH.
    - destruct (f (x, o)); simpl; [rewrite bool_decide_eq_false_2 by exact Hne|]; exact IH.
  Qed.
  Lemma map_wwrite_inj x y : map WWrite x = map WWrite y -> x = y.
  Proof. revert y. induction x as [|d x IH]; intros [|e y] H; try discriminate H; [reflexivity|]. simpl in H. injection H as -> H. f_equal. apply IH. exact H. Qed.
  Lemma part_block k B : stages !! k = Some (SBlock B) -> exists x, stage_bytes a ws hist (SBlock B) x /\ exists ds, (part k).*2 = map WWrite ds /\ x = concat ds.
  Proof.
    intros H. assert (Hp : forall x o, (x, o) ∈ part k -> exists c d, x = From c /\ o = WWrite d /\ c ∈ B).
    { intros x o Hx. unfold part in Hx. apply elem_of_list_In, filter_In in Hx as [Hx E]. apply elem_of_list_In in Hx. simpl in E. rewrite (index_is k _ _ H) in E. destruct x as [u|c]; [discriminate E|]. simpl in E. apply bool_decide_eq_true in E.
      destruct (co_nothing_else _ _ _ _ _ _ Hco j _ _ Hx) as (w & Hw & Hd). apply made_by_elem in Hx. rewrite (co_into _ _ _ _ _ _ Hco c w j Hw Hd) in Hx. apply elem_of_list_fmap in Hx as (l & -> & _). eauto 6. }
    exists (concat (data_of (part k)).*2). split.
    - exists (data_of (part k)). split; [reflexivity|]. split.
      + intros c l Hx. apply elem_of_list_omap in Hx as ([[u|c'] [d|]] & Hx & E); try discriminate E. injection E as -> ->. destruct (Hp _ _ Hx) as (c0 & d0 & [= <-] & _ & Hc). exact Hc.
      + intros c w Hc Hw. apply map_wwrite_inj. rewrite data_of_made by (intros x o Hx; destruct (Hp _ _ Hx) as (c0 & d0 & -> & -> & _); discriminate). destruct (st_block _ _ _ _ _ _ Hst B c ltac:(eapply elem_of_list_lookup_2; exact H) Hc) as (w' & Hw' & Hd). assert (w' = w) as -> by congruence.
        unfold part. rewrite made_filter; [rewrite (co_into _ _ _ _ _ _ Hco c w j Hw Hd), map_map; reflexivity|]. intros o. simpl. rewrite (index_is k _ _ H). simpl. apply bool_decide_eq_true_2. exact Hc.
    - exists (data_of (part k)).*2. split; [|reflexivity]. apply only_data. intros x o Hx. destruct (Hp _ _ Hx) as (c & d & -> & -> & _). eauto.
  Qed.
  Lemma stages_come : exists xs, Forall2 (stage_bytes a ws hist) stages xs /\ lines (concat xs) (lines_of (hist j)).
  Proof.
    assert (Hall : forall n, n <= length stages -> exists xs, Forall2 (stage_bytes a ws hist) (take n stages) xs /\ exists ds, (concat (map part (seq 0 n))).*2 = map WWrite ds /\ concat xs = concat ds).
    { induction n as [|n IH]; intros Hn; [exists []; split; [constructor|]; exists []; auto|]. destruct IH as (xs & H1 & ds & H2 & H3); [lia|]. destruct (lookup_lt_is_Some_2 stages n) as [st Hstn]; [lia|].
      assert (Hk : exists x, stage_bytes a ws hist st x /\ exists ds, (part n).*2 = map WWrite ds /\ x = concat ds).
      { destruct st as [t ch|B]; [|apply part_block; exact Hstn]. exists (concat ch). split; [reflexivity|]. exists ch. split; [eapply part_cmd; exact Hstn|reflexivity]. }
      destruct Hk as (x & Hx & dx & Hd & Ex). exists (xs ++ [x]). split; [rewrite (take_S_r _ _ _ Hstn); apply Forall2_app; [exact H1|constructor; [exact Hx|constructor]]|]. exists (ds ++ dx). rewrite seq_S, map_app, concat_app, fmap_app, map_app, H2. simpl. rewrite app_nil_r, Hd. split; [reflexivity|]. rewrite !concat_app, H3. simpl. rewrite app_nil_r, Ex. reflexivity. }
    destruct (Hall (length stages) ltac:(lia)) as (xs & H1 & ds & H2 & H3). rewrite firstn_all in H1. exists xs. split; [exact H1|]. unfold lines_of. rewrite parts, fmap_app, H2, part_flush. destruct (C36_chunking_does_not_matter ds) as (ls & E & Hl). rewrite E, H3. exact Hl.
  Qed.
End Stages.

(** ** C74 *)

(** A writer whose item does several things shows them one after another: the output of a
    command as it came, the lines of a block whole and with prefixes, whatever the
    scheduling. *)
Theorem C74_one_after_another a ws calls before s : nested ws -> one_block ws -> rtc (ostep a ws before) (nstart calls) s -> nfinished s ->
  exists hist log, comes_out a ws calls (ns_out s) hist log /\
    forall j stages fl, staged ws calls before j stages fl ->
      exists xs, Forall2 (stage_bytes a ws hist) stages xs /\ lines (concat xs) (lines_of (hist j)).
Proof.
  intros Hn Ho Hr Hf. destruct (ord_reach a ws Hn Ho calls before s Hr) as (hist & log & pd & sofar & who & Hi & [R1 R2 R3 R4 R5 R6]). exists hist, log. pose proof (inv_finished a ws calls s hist log pd sofar Hi Hf) as Hco. split; [exact Hco|].
  intros j stages fl Hst. eapply stages_come; eassumption.
Qed.

(** Output that ends with a newline, or is none. *)
Definition ended (x : str) : Prop := x = [] \/ exists y, x = y ++ [nl].
Lemma lines_total s : exists ls, lines s ls.
Proof. destruct (cuts_total s) as (ls & p & H). exists (ls ++ flush p). apply cuts_lines. exact H. Qed.
Lemma lines_app x y ls ls' : ended x -> lines x ls -> lines y ls' -> lines (x ++ y) (ls ++ ls').
Proof.
  intros He Hx Hy. induction Hx as [|l Hl Hnl|l s ls Hnl Hx IH]; [exact Hy| |].
  - exfalso. destruct He as [->|[y0 ->]]; [congruence|]. apply Hnl. rewrite elem_of_app. right. left.
  - rewrite <- app_assoc. simpl. constructor; [exact Hnl|]. apply IH. destruct s as [|c s]; [left; reflexivity|]. right. destruct He as [E|[y0 E]]; [destruct l; discriminate E|]. destruct (exists_last (l:=c :: s) ltac:(discriminate)) as (z & b & Ez). rewrite Ez in *. exists z. f_equal. change (l ++ nl :: z ++ [b]) with (l ++ (nl :: z) ++ [b]) in E. rewrite app_assoc in E. apply app_inj_tail in E as [_ E]. rewrite E. reflexivity.
Qed.
Lemma block_ended a ws hist B x : (forall c, c ∈ B -> is_Some (ws !! c)) -> stage_bytes a ws hist (SBlock B) x -> ended x.
Proof.
  intros HB (log & -> & Hin & Hof). destruct log as [|e log] using rev_ind; [left; reflexivity|]. right. destruct e as [c l]. assert (Hc : c ∈ B) by (apply (Hin c l); rewrite elem_of_app; right; left). destruct (HB c Hc) as [w Hw]. specialize (Hof c w Hc Hw).
  assert (Hl : l ∈ of_writer c (log ++ [(c, l)])) by (unfold of_writer; apply elem_of_writer; rewrite elem_of_app; right; left). rewrite Hof in Hl. apply elem_of_list_fmap in Hl as (r & -> & _). rewrite fmap_app, concat_app. simpl. rewrite app_nil_r. unfold line_bytes. exists (concat log.*2 ++ w_prefix (n_as w) ++ shown a (w_stripped (n_as w)) r). rewrite <- !app_assoc. reflexivity.
Qed.
(** If every command ends its last line, the lines of the item are the lines of its
    stages. *)
Theorem C74_lines_of_stages a ws calls before s : nested ws -> one_block ws -> rtc (ostep a ws before) (nstart calls) s -> nfinished s ->
  exists hist log, comes_out a ws calls (ns_out s) hist log /\
    forall j stages fl, staged ws calls before j stages fl -> (forall t chunks, SCmd t chunks ∈ stages -> ended (concat chunks)) ->
      exists xs lss, Forall2 (stage_bytes a ws hist) stages xs /\ Forall2 lines xs lss /\ lines_of (hist j) = concat lss.
Proof.
  intros Hn Ho Hr Hf. destruct (C74_one_after_another a ws calls before s Hn Ho Hr Hf) as (hist & log & Hco & H). exists hist, log. split; [exact Hco|].
  intros j stages fl Hst He. destruct (H j stages fl Hst) as (xs & Hx & Hl).
  assert (Hend : Forall ended xs).
  { assert (Hst' : forall st x, st ∈ stages -> stage_bytes a ws hist st x -> ended x).
    { intros [t ch|B] x Hin Hb; [simpl in Hb; subst x; eapply He; exact Hin|]. eapply block_ended; [|exact Hb]. intros c Hc. destruct (st_block _ _ _ _ _ _ Hst B c Hin Hc) as (w & Hw & _). eauto. }
    clear -Hx Hst'. induction Hx as [|st x sts xs Hb _ IH]; constructor; [eapply Hst'; [left|exact Hb]|]. apply IH. intros st' x' Hin. apply Hst'. right. exact Hin. }
  assert (Hls : exists lss, Forall2 lines xs lss /\ lines (concat xs) (concat lss)).
  { clear -Hend. induction Hend as [|x xs Hx _ (lss & H1 & H2)]; [exists []; split; constructor|]. destruct (lines_total x) as [ls Hls]. exists (ls :: lss). split; [constructor; assumption|]. simpl. apply lines_app; assumption. }
  destruct Hls as (lss & H1 & H2). exists xs, lss. split; [exact Hx|]. split; [exact H1|]. eapply lines_fun; eassumption.
Qed.

(** Waiting for others does not lead to waiting for ever. *)
Theorem C74_no_deadlock a ws calls before s : nested ws -> (forall t cs i o, calls !! t = Some cs -> (i, o) ∈ cs -> is_Some (ws !! i)) ->
  well_founded before -> (forall t t', Decision (before t t')) -> (forall t t', before t t' -> t < length calls) ->
  rtc (ostep a ws before) (nstart calls) s -> nfinished s \/ exists s', ostep a ws before s s'.
Proof.
  intros Hn Hc Hwf Hdec Hval Hr. assert (Hc' : Forall (Forall (fun c => exists w, ws !! c.1 = Some w)) calls) by (rewrite Forall_forall; intros cs Hcs; rewrite Forall_forall; intros [i o] Hx; apply elem_of_list_lookup_1 in Hcs as [t Ht]; destruct (Hc t cs i o Ht Hx) as [w Hw]; exists w; exact Hw).
  assert (Hr' : rtc (nstep a ws) (nstart calls) s) by (clear -Hr; induction Hr as [|x y z [H _] _ IH]; [constructor|eapply rtc_l; eassumption]).
  assert (Hinv : length (ns_threads s) = length calls /\ forall t th t', ns_threads s !! t = Some th -> t_stack th <> [] -> before t' t -> idle s t').
  { refine (rtc_ind_r (fun x => length (ns_threads x) = length calls /\ forall t th t', ns_threads x !! t = Some th -> t_stack th <> [] -> before t' t -> idle x t') (nstart calls) _ _ s Hr).
    - split; [apply map_length|]. intros t th t' Ht Hst _. simpl in Ht. rewrite list_lookup_fmap in Ht. apply fmap_Some in Ht as (cs & _ & ->). simpl in Hst. congruence.
    - intros x y _ [Hxy Hg] [IHl IH]. split; [destruct Hxy; cbn [ns_threads] in *; rewrite insert_length; exact IHl|]. intros t th t' Ht Hst Hb. eapply idle_stays; [exact Hxy|].
      destruct (ns_threads x !! t) as [th0|] eqn:E0; [|exfalso; apply lookup_ge_None in E0; apply lookup_lt_Some in Ht; destruct Hxy; cbn [ns_threads] in *; rewrite insert_length in Ht; lia].
      assert (Hd : th0 = th \/ th0 <> th) by (destruct (decide (th0 = th)); auto).
      destruct Hd as [->|Hne]; [eapply IH; eassumption|]. eapply Hg; [exists th0, th; split; [exact E0|split; [exact Ht|exact Hne]]|exact Hb]. }
  destruct Hinv as [Hlen Hinv].
  assert (Honly : forall s' t th', nstep a ws s s' -> ns_threads s' = <[t := th']> (ns_threads s) -> (forall t', before t' t -> idle s t') -> ostep a ws before s s').
  { intros s' t th' Hs E Hi. split; [exact Hs|]. intros u t' (x & y & Hx & Hy & Hne) Hb. destruct (decide (u = t)) as [->|Hu]; [apply Hi; exact Hb|]. rewrite E, list_lookup_insert_ne in Hy by congruence. congruence. }
  destruct (who_goes_on a ws Hn calls s Hc' Hr') as [(t & th & th' & s' & Ht & Hst & Hs & E)|Hno].
  - right. exists s'. eapply Honly; [exact Hs|exact E|]. intros t' Hb. eapply Hinv; eassumption.
  - assert (Hidle : forall t, t < length calls -> idle s t \/ exists th, ns_threads s !! t = Some th /\ t_calls th <> []).
    { intros t Hlt. destruct (lookup_lt_is_Some_2 (ns_threads s) t) as [th Hth]; [lia|]. destruct (Hno _ _ Hth) as [Hst _]. destruct (t_calls th) as [|c cs] eqn:Ec; [left; exists th; auto|right; exists th; split; [exact Hth|congruence]]. }
    destruct (decide (Forall (fun th => t_calls th = []) (ns_threads s))) as [Hf|Hf].
    + left. apply Forall_forall. intros th Hin. rewrite Forall_forall in Hf. split; [apply Hf; exact Hin|]. apply elem_of_list_lookup in Hin as [t Ht]. apply (Hno _ _ Ht).
    + right. apply not_Forall_Exists in Hf; [|intros th; destruct (t_calls th); [left; reflexivity|right; discriminate]]. apply Exists_exists in Hf as (th & Hin & Hne). apply elem_of_list_lookup in Hin as [t Ht]. simpl in Hne.
      revert th Ht Hne. induction (Hwf t) as [t _ IH]. intros th Ht Hne.
      assert (Hex : (forall t', before t' t -> idle s t') \/ exists t' th', before t' t /\ ns_threads s !! t' = Some th' /\ t_calls th' <> []).
      { assert (Hk : forall n, n <= length calls -> (forall t', t' < n -> before t' t -> idle s t') \/ exists t' th', before t' t /\ ns_threads s !! t' = Some th' /\ t_calls th' <> []).
        { induction n as [|n IHn]; intros Hle; [left; intros; lia|]. destruct IHn as [Hall|Hex]; [lia| |right; exact Hex]. destruct (Hdec n t) as [Hb|Hb].
          - destruct (Hidle n ltac:(lia)) as [Hi|(th' & Ht' & Hc1)]; [|right; eauto]. left. intros t' Hlt Hb'. destruct (decide (t' = n)) as [->|]; [exact Hi|]. apply Hall; [lia|exact Hb'].
          - left. intros t' Hlt Hb'. destruct (decide (t' = n)) as [->|]; [congruence|]. apply Hall; [lia|exact Hb']. }
        destruct (Hk (length calls) ltac:(lia)) as [Hall|Hex]; [|auto]. left. intros t' Hb. apply Hall; [eapply Hval; exact Hb|exact Hb]. }
      destruct Hex as [Hall|(t' & th' & Hb & Ht' & Hc1)]; [|eapply IH; eassumption]. destruct (proj2 (Hno _ _ Ht) Hne) as (th' & s' & Hs & E). exists s'. eapply Honly; eassumption.
Qed.

(** ** A run: a command, a block of two, a command that does not end its line. *)
Lemma nexec_moves a ws t s s' u : nexec a ws t s = Some s' -> moves s s' u -> u = t.
Proof.
  intros H (x & y & Hx & Hy & Hne). destruct (decide (u = t)) as [->|Hu]; [reflexivity|]. exfalso. apply Hne. assert (E : exists th, ns_threads s' = <[t := th]> (ns_threads s)); [|destruct E as [th E]; rewrite E, list_lookup_insert_ne in Hy by congruence; congruence].
  clear -H. destruct s as [m p d ts]. simpl in *. destruct (ts !! t) as [[[|[i o] cs] [|[k [|l pend]] rest]]|]; try discriminate H; repeat match type of H with match ?e with _ => _ end = _ => destruct e; try discriminate H end; injection H as <-; eexists; reflexivity.
Qed.
Lemma nturn_orun a ws (before : nat -> nat -> Prop) n t s : (forall t', before t' t -> idle s t') -> rtc (ostep a ws before) s (nturn a ws n t s).
Proof.
  revert s. induction n as [|n IH]; intros s H; simpl; [constructor|]. destruct (nexec a ws t s) as [s'|] eqn:E; [|constructor]. assert (Hs := nexec_step _ _ _ _ _ E). eapply rtc_l; [|apply IH; intros t' Hb; eapply idle_stays; [exact Hs|apply H; exact Hb]].
  split; [exact Hs|]. intros u t' Hm Hb. rewrite (nexec_moves _ _ _ _ _ _ E Hm) in Hb. apply H. exact Hb.
Qed.
Definition seq_ws : list nwriter :=
  [NWriter (Writer (lit "[o] ") 0 false) (Terminal 1) 0; NWriter (Writer (lit "[x] ") 0 false) (Into 0) 1; NWriter (Writer (lit "[y] ") 0 false) (Into 0) 1].
Definition seq_calls : list (list (nat * wop)) :=
  [[(0, WWrite (lit "a" ++ [nl]))]; [(1, WWrite (lit "p")); (1, WFlush)]; [(2, WWrite (lit "q" ++ [nl])); (2, WFlush)]; [(0, WWrite (lit "b"))]; [(0, WFlush)]].
Definition seq_rank (t : nat) : nat := nth t [0; 1; 1; 2; 3] 4.
Definition seq_before (t t' : nat) : Prop := seq_rank t < seq_rank t' /\ t < 5 /\ t' < 5.
Definition seq_stages : list stage := [SCmd 0 [lit "a" ++ [nl]]; SBlock [1; 2]; SCmd 3 [lit "b"]].
Lemma seq_under i c : under seq_ws i c -> i = c \/ c = 0.
Proof. intros H. destruct H as [i|i c w j H Hw Hd]; [auto|]. right. destruct c as [|[|[|c]]]; simpl in Hw; try discriminate Hw; injection Hw as <-; simpl in Hd; congruence. Qed.
Lemma seq_acts st t k : seq_stages !! k = Some st -> acts seq_ws seq_calls st t -> t < 5 /\ seq_rank t = k.
Proof.
  intros H Ha. destruct k as [|[|[|k]]]; simpl in H; try discriminate H; injection H as <-; simpl in Ha; [subst t; split; [lia|reflexivity]| |subst t; split; [lia|reflexivity]].
  destruct Ha as (c & cs & i & o & Hc & Hcs & Hin & Hu). apply seq_under in Hu as [-> | ->]; [|apply elem_of_list_In in Hc; simpl in Hc; lia].
  destruct t as [|[|[|[|[|t]]]]]; simpl in Hcs; try discriminate Hcs; injection Hcs as <-; try (split; [lia|reflexivity]); exfalso; apply elem_of_list_singleton in Hin; injection Hin as -> _; apply elem_of_list_In in Hc; simpl in Hc; lia.
Qed.
Example C74_met : nested seq_ws /\ one_block seq_ws /\ staged seq_ws seq_calls seq_before 0 seq_stages 4 /\
  (forall t cs i o, seq_calls !! t = Some cs -> (i, o) ∈ cs -> is_Some (seq_ws !! i)) /\ well_founded seq_before /\
  exists s, rtc (ostep plain_lib seq_ws seq_before) (nstart seq_calls) s /\ nfinished s /\
    ns_out s 1 = lit "[o] a" ++ [nl] ++ lit "[o] [y] q" ++ [nl] ++ lit "[o] [x] p" ++ [nl] ++ lit "[o] b" ++ [nl].
Proof.
  split; [|split; [|split; [|split; [|split]]]].
  - intros [|[|[|i]]] w j H Hd; simpl in H; try discriminate H; injection H as <-; try discriminate Hd; injection Hd as <-; (eexists; split; [reflexivity|simpl; lia]).
  - intros [|[|[|i]]] [|[|[|j]]] w w' e H H' Hd Hd'; simpl in H, H'; try discriminate H; try discriminate H'; injection H as <-; injection H' as <-; try discriminate Hd; try discriminate Hd'; reflexivity.
  - split.
    + intros t ch H. apply elem_of_list_In in H. simpl in H. destruct H as [H|[H|[H|[]]]]; try discriminate H; injection H as <- <-; eexists; split; reflexivity.
    + intros [|[|[|c]]] w H Hd; simpl in H; try discriminate H; injection H as <-; try discriminate Hd; exists [1; 2]; (split; [right; left|apply elem_of_list_In; simpl; auto]).
    + intros B c HB Hc. apply elem_of_list_In in HB. simpl in HB. destruct HB as [H|[H|[H|[]]]]; try discriminate H. injection H as <-. apply elem_of_list_In in Hc. simpl in Hc. destruct Hc as [<-|[<-|[]]]; (eexists; split; reflexivity).
    + intros [|[|[|[|[|t]]]]] cs H Hne Hno; simpl in H; try discriminate H; injection H as <-; try reflexivity; exfalso; try congruence; [apply (Hno [lit "a" ++ [nl]])|apply (Hno [lit "b"])]; apply elem_of_list_In; simpl; auto.
    + eexists. split; [reflexivity|]. split; [reflexivity|]. intros ch H. apply elem_of_list_In in H. simpl in H. destruct H as [H|[H|[H|[]]]]; discriminate H.
    + intros k k' st st' t t' H H' Hk Ha Ha'. destruct (seq_acts _ _ _ H Ha), (seq_acts _ _ _ H' Ha'). split; [lia|]. split; assumption.
    + intros st t Hst Ha. apply elem_of_list_lookup_1 in Hst as [k Hk]. destruct (seq_acts _ _ _ Hk Ha) as [H1 H2]. apply lookup_lt_Some in Hk. simpl in Hk. split; [change (seq_rank 4) with 3; lia|]. split; [exact H1|lia].
    + intros k k' t ch ch' H H'. destruct k as [|[|[|k]]], k' as [|[|[|k']]]; simpl in H, H'; try discriminate H; try discriminate H'; try reflexivity; congruence.
    + intros k k' B B' c H H' _ _. destruct k as [|[|[|k]]], k' as [|[|[|k']]]; simpl in H, H'; try discriminate H; try discriminate H'; try reflexivity; congruence.
  - intros [|[|[|[|[|t]]]]] cs i o H Hin; simpl in H; try discriminate H; injection H as <-; repeat (apply elem_of_cons in Hin as [[= -> ->]|Hin]; [eexists; reflexivity|]); apply elem_of_nil in Hin as [].
  - intros t. pose proof (lt_wf (seq_rank t)) as H. remember (seq_rank t) as r eqn:Er. revert t Er. induction H as [r _ IH]. intros t ->. constructor. intros t' (H & _). eapply IH; [exact H|reflexivity].
  - set (s0 := nstart seq_calls). set (s1 := nturn plain_lib seq_ws 100 0 s0). set (s2 := nturn plain_lib seq_ws 2 1 s1). set (s3 := nturn plain_lib seq_ws 100 2 s2). set (s4 := nturn plain_lib seq_ws 100 1 s3). set (s5 := nturn plain_lib seq_ws 100 3 s4). exists (nturn plain_lib seq_ws 100 4 s5).
    assert (Hgo : forall n t s, (forall t', t' < 5 -> seq_rank t' < seq_rank t -> idle s t') -> rtc (ostep plain_lib seq_ws seq_before) s (nturn plain_lib seq_ws n t s)) by (intros n t s H; apply nturn_orun; intros t' (H1 & H2 & _); apply H; assumption).
    split; [|split; [vm_compute; repeat constructor|vm_compute; reflexivity]].
    etransitivity; [apply (Hgo 100 0)|etransitivity; [apply (Hgo 2 1)|etransitivity; [apply (Hgo 100 2)|etransitivity; [apply (Hgo 100 1)|etransitivity; [apply (Hgo 100 3)|apply (Hgo 100 4)]]]]];
      intros [|[|[|[|[|t']]]]] Hlt Hrk; try (exfalso; vm_compute in Hrk; lia); (eexists; split; [vm_compute; reflexivity|split; reflexivity]).
Qed.

Print Assumptions C74_one_after_another.
Print Assumptions C74_lines_of_stages.
Print Assumptions C74_no_deadlock.
