(** Lemmas about drawing the displays. *)
From Verif Require Import Base Types_Model Path_Model Cond_Model Utf8_Model Utf8_Spec Utf8_Proof Out_Model Out_Spec Out_Proof Out_View Out_Sent View_Model View_Spec.

(** Children are there, and no child is listed twice. *)
Definition full (m : gmap str item) : Prop := forall k it, m !! k = Some it -> NoDup (i_children it) /\ forall c, c ∈ i_children it -> is_Some (m !! c).

Lemma full_update m k x y : full m -> m !! k = Some x -> i_children y = i_children x -> full (<[k := y]> m).
Proof.
  intros Hf Hk Hy j it Hj.
  assert (Hj' : exists it', m !! j = Some it' /\ i_children it' = i_children it).
  { destruct (decide (k = j)) as [<-|Hne]; [rewrite lookup_insert in Hj; injection Hj as <-; eauto|rewrite lookup_insert_ne in Hj by exact Hne; eauto]. }
  destruct Hj' as (it' & Hj' & Ech). destruct (Hf _ _ Hj') as [H1 H2]. rewrite Ech in H1, H2. split; [exact H1|]. intros c Hc.
  destruct (decide (k = c)) as [<-|Hne]; [rewrite lookup_insert; eauto|rewrite lookup_insert_ne by exact Hne; auto].
Qed.
Lemma full_step v P m : shape v P -> full (v_items v) -> orderly P [m] -> full (v_items (handle v m)).
Proof.
  intros Hs Hf Ho. pose proof Hs as [Hc HP]. destruct m as [key parent|key|key line|key e|key| |]; cbn [orderly] in *; try exact Hf.
  - destruct Ho as ([j Ej] & Hne & Hin & Hnot & _). apply HP in Hin as [p Hp].
    assert (Hk : v_items v !! key = None). { destruct (v_items v !! key) eqn:E; [|reflexivity]. exfalso. apply Hnot, HP. eauto. }
    assert (Hdiff : key <> parent) by congruence. cbn [handle]. destruct parent as [|pc pr]; [congruence|]. set (parent := pc :: pr) in *. rewrite lookup_insert_ne by exact Hdiff. rewrite Hp. cbn [v_items].
    intros i it Hi.
    assert (Hpres : forall c, is_Some (v_items v !! c) -> is_Some (<[parent:=Item [] (i_started p) (i_done p) (i_err p) (i_children p ++ [key])]> (<[key:=fresh]> (v_items v)) !! c)).
    { intros c Hcs. destruct (decide (parent = c)) as [<-|]; [rewrite lookup_insert; eauto|rewrite lookup_insert_ne by assumption]. destruct (decide (key = c)) as [<-|]; [rewrite lookup_insert; eauto|rewrite lookup_insert_ne by assumption; exact Hcs]. }
    destruct (decide (parent = i)) as [<-|Hpi].
    + rewrite lookup_insert in Hi. injection Hi as <-. cbn [i_children]. destruct (Hf _ _ Hp) as [H1 H2]. split.
      * apply NoDup_app. split; [exact H1|]. split; [|apply NoDup_singleton]. intros c Hcin Hce. apply elem_of_list_singleton in Hce as ->. destruct (H2 _ Hcin) as [y Hy]. congruence.
      * intros c Hcin. apply elem_of_app in Hcin as [Hcin|Hcin]; [apply Hpres, H2, Hcin|]. apply elem_of_list_singleton in Hcin as ->. rewrite lookup_insert_ne, lookup_insert by congruence. eauto.
    + rewrite lookup_insert_ne in Hi by exact Hpi. destruct (decide (key = i)) as [<-|Hki].
      * rewrite lookup_insert in Hi. injection Hi as <-. split; [apply NoDup_nil_2|]. intros c Hcin. apply elem_of_nil in Hcin as [].
      * rewrite lookup_insert_ne in Hi by exact Hki. destruct (Hf _ _ Hi) as [H1 H2]. split; [exact H1|]. intros c Hcin. apply Hpres, H2, Hcin.
  - cbn [handle]. destruct (v_items v !! key) as [x|] eqn:E; [|exact Hf]. apply (full_update _ key x); [exact Hf|exact E|reflexivity].
  - cbn [handle]. destruct (v_items v !! key) as [x|] eqn:E; [|exact Hf]. apply (full_update _ key x); [exact Hf|exact E|reflexivity].
  - cbn [handle]. destruct (v_items v !! key) as [x|] eqn:E; [|exact Hf]. apply (full_update _ key x); [exact Hf|exact E|reflexivity].
  - intros i it Hi. rewrite (clear_lookup v key i Hc) in Hi. destruct (belowb key i) eqn:Eb; [discriminate Hi|].
    destruct (decide (i = key)) as [->|Hik].
    + apply fmap_Some in Hi as (x & Hx & ->). split; [apply NoDup_nil_2|]. intros c Hcin. apply elem_of_nil in Hcin as [].
    + destruct (Hf _ _ Hi) as [H1 H2]. split; [exact H1|]. intros c Hcin. rewrite (clear_lookup v key c Hc). destruct (Hc _ _ Hi) as [_ H3]. destruct (H3 _ Hcin) as [n ->].
      assert (Hb : belowb key (i ++ "."%char :: itoa n) = false).
      { destruct (belowb key (i ++ "."%char :: itoa n)) eqn:E; [|reflexivity]. apply belowb_spec, above_child in E as [E|E]; [congruence|]. apply belowb_spec in E. congruence. }
      rewrite Hb. destruct (decide (_ = key)) as [E|]; [|apply H2, Hcin]. destruct (H2 _ Hcin) as [y Hy]. rewrite E in Hy. rewrite Hy. simpl. eauto.
Qed.
Lemma full_new n max : full (v_items (new_display n max)).
Proof. intros k it H. apply new_items in H as [-> _]. split; [apply NoDup_nil_2|]. intros c Hc. apply elem_of_nil in Hc as []. Qed.
Lemma full_all n max ms : orderly (roots n) ms -> full (v_items (handle_all (new_display n max) ms)).
Proof.
  induction ms as [|m ms IH] using rev_ind; intros Ho; [apply full_new|]. apply orderly_app in Ho as [Ho1 Ho2]. rewrite handle_all_snoc.
  eapply full_step; [apply shape_all; [apply shape_new|exact Ho1]|exact (IH Ho1)|exact Ho2].
Qed.
Lemma handle_all_roots v ms : v_roots (handle_all v ms) = v_roots v.
Proof. induction ms as [|m ms IH] using rev_ind; [reflexivity|]. rewrite handle_all_snoc, handle_roots. exact IH. Qed.

Lemma walk_covers m : closed m -> full m -> forall k l, walk m k l -> NoDup l /\ forall j, j ∈ l <-> in_tree k j /\ is_Some (m !! j).
Proof.
  intros Hc Hf. enough (H : forall w k l, weight k m <= w -> walk m k l -> NoDup l /\ forall j, j ∈ l <-> in_tree k j /\ is_Some (m !! j)) by (intros k l; eapply H; reflexivity).
  induction w as [|w IH]; intros k l Hw Hl; inversion Hl as [? it ls Hk HF]; subst.
  - exfalso. assert (Hp : exists it, without (fun j => negb (inb k j)) m !! k = Some it) by (exists it; apply weight_lookup; split; [exact Hk|left; reflexivity]).
    destruct Hp as [y Hp]. assert (Hz : weight k m <> 0) by (unfold weight; apply map_size_non_empty_iff; intros E; rewrite E, lookup_empty in Hp; discriminate). lia.
  - destruct (Hf _ _ Hk) as [HN HS]. destruct (Hc _ _ Hk) as [_ HK].
    assert (HG : Forall2 (fun c l => NoDup l /\ forall j, j ∈ l <-> in_tree c j /\ is_Some (m !! j)) (i_children it) ls).
    { clear HN. assert (HW : Forall (fun c => weight c m <= w) (i_children it)).
      { apply Forall_forall. intros c Hin. destruct (HK _ Hin) as [i ->]. pose proof (weight_child k m _ it Hk (below_child k i)). lia. }
      clear Hl Hk HS HK. induction HF as [|c l cs ls Hcl HF IHF]; [constructor|]. apply Forall_cons in HW as [H1 H2]. constructor; [apply IH; assumption|auto]. }
    assert (Helem : forall j, j ∈ concat ls <-> exists c, c ∈ i_children it /\ in_tree c j /\ is_Some (m !! j)).
    { intros j. clear - HG. induction HG as [|c l cs ls [_ H] HG IHG]; cbn [concat].
      - split; [intros Hx; apply elem_of_nil in Hx as []|intros (c & Hx & _); apply elem_of_nil in Hx as []].
      - rewrite elem_of_app, H, IHG. split.
        + intros [Hx|(c' & Hin & Hx)]; [exists c; split; [left|exact Hx]|exists c'; split; [right; exact Hin|exact Hx]].
        + intros (c' & Hin & Hx). apply elem_of_cons in Hin as [->|Hin]; [left; exact Hx|right; eauto]. }
    assert (Hbelow : forall c j, c ∈ i_children it -> in_tree c j -> below k j).
    { intros c j Hin Ht. destruct (HK _ Hin) as [i ->]. destruct Ht as [->|Ht]; [apply below_child|eapply below_trans; [apply below_child|exact Ht]]. }
    split.
    + apply NoDup_cons. split.
      * rewrite Helem. intros (c & Hin & Ht & _). exact (below_irrefl _ (Hbelow _ _ Hin Ht)).
      * clear Helem Hl HF Hw HS. induction HG as [|c l cs ls [HNl Hj] HG IHG]; [apply NoDup_nil_2|]. cbn [concat]. apply NoDup_cons in HN as [Hcn HN]. apply NoDup_app. split; [exact HNl|]. split.
        -- intros x Hx Hy. apply Hj in Hx as [Hx _]. assert (Hex : exists c', c' ∈ cs /\ in_tree c' x).
           { clear - HG Hy. induction HG as [|c l cs ls [_ H] HG IHG]; [apply elem_of_nil in Hy as []|]. cbn [concat] in Hy. apply elem_of_app in Hy as [Hy|Hy]; [exists c; split; [left|apply H, Hy]|]. destruct (IHG Hy) as (c' & ? & ?). exists c'. split; [right; assumption|assumption]. }
           destruct Hex as (c' & Hin' & Ht'). destruct (HK c ltac:(left)) as [i Ei]. destruct (HK c' ltac:(right; exact Hin')) as [i' Ei'].
           destruct (decide (i = i')) as [<-|Hne]; [congruence|]. rewrite Ei in Hx. rewrite Ei' in Ht'. exact (children_apart k i i' Hne x Hx Ht').
        -- apply IHG; [exact HN|intros x Hx; apply HK; right; exact Hx|intros x j Hx; apply Hbelow; right; exact Hx].
    + intros j. rewrite elem_of_cons, Helem. split.
      * intros [->|(c & Hin & Ht & Hs)]; [split; [left; reflexivity|eauto]|]. split; [right; eapply Hbelow; eassumption|exact Hs].
      * intros [[->|Hb] Hs]; [left; reflexivity|right]. destruct Hs as [y Hy]. destruct (below_children _ _ _ _ _ Hc Hk Hy Hb) as (c & Hin & Ht). exists c. split; [exact Hin|]. split; [exact Ht|eauto].
Qed.

Lemma heads_app a b : heads (a ++ b) = heads a ++ heads b.
Proof. unfold heads. rewrite List.filter_app, map_app. reflexivity. Qed.
Lemma heads_concat rss : heads (concat rss) = concat (map heads rss).
Proof. induction rss as [|r rss IH]; [reflexivity|]. cbn [concat map]. rewrite heads_app, IH. reflexivity. Qed.

Section Rows.
  Context (S : screen) (is_cancel : str -> bool) (label : str -> str) (v : display) (width : Z).
  Notation render := (render_item S is_cancel label).

  Lemma no_heads {A} (l : list A) (f : nat -> A -> row) : (forall n a, match r_kind (f n a) with KTitle | KShort => False | _ => True end) -> heads (imap f l) = [].
  Proof.
    intros Hf. revert f Hf. induction l as [|a l IH]; intros f Hf; [reflexivity|]. rewrite imap_cons. change (heads (f 0 a :: imap (f ∘ Datatypes.S) l)) with (heads ([f 0 a] ++ imap (f ∘ Datatypes.S) l)).
    rewrite heads_app, IH by (intros n b; apply (Hf (Datatypes.S n) b)). unfold heads. simpl. specialize (Hf 0 a). destruct (r_kind (f 0 a)); (reflexivity || contradiction).
  Qed.
  Lemma no_pads r n : match r_kind r with KTitle | KShort => False | _ => True end -> heads (repeat r n) = [].
  Proof. intros Hr. induction n as [|n IH]; [reflexivity|]. unfold heads in *. simpl. destruct (r_kind r); (exact IH || contradiction). Qed.

  Lemma render_walk : closed (v_items v) -> full (v_items v) ->
    forall fuel k indent depth, is_Some (v_items v !! k) -> weight k (v_items v) < fuel -> walk (v_items v) k (heads (render fuel v width k indent depth)).
  Proof.
    intros Hc Hf. induction fuel as [|fuel IH]; intros k indent depth [it Hk] Hw; [lia|]. cbn [render_item]. rewrite Hk.
    assert (HC : forall ind d, Forall2 (walk (v_items v)) (i_children it) (map heads (map (fun ck => render fuel v width ck ind d) (i_children it)))).
    { intros ind d. destruct (Hf _ _ Hk) as [_ HS]. destruct (Hc _ _ Hk) as [_ HK].
      assert (HW : Forall (fun c => is_Some (v_items v !! c) /\ weight c (v_items v) < fuel) (i_children it)).
      { apply Forall_forall. intros c Hin. split; [apply HS, Hin|]. destruct (HK _ Hin) as [i ->]. pose proof (weight_child k _ _ it Hk (below_child k i)). lia. }
      clear HS HK Hk. induction (i_children it) as [|c cs IHc]; [constructor|]. apply Forall_cons in HW as [[H1 H2] HW]. cbn [map]. constructor; [apply IH; assumption|auto]. }
    destruct depth as [|depth].
    - match goal with |- walk _ _ (heads (?r :: ?mid ++ [?foot])) => change (heads (r :: mid ++ [foot])) with (heads ([r] ++ mid ++ [foot])) end.
      rewrite !heads_app. match goal with |- context [heads [Row ?a KFoot ?b]] => change (heads [Row a KFoot b]) with (@nil str) end. rewrite app_nil_r.
      match goal with |- walk _ _ (heads [Row ?a KTitle ?b] ++ ?m) => change (walk (v_items v) k (k :: m)) end.
      destruct (i_children it) as [|c cs] eqn:Ech.
      + rewrite heads_app, no_heads by (intros; exact I).
        match goal with |- context [if ?b then _ else _] => destruct b end; [rewrite no_pads by exact I|]; apply (walk_item _ k it []); try exact Hk; rewrite Ech; constructor.
      + rewrite heads_concat. apply (walk_item _ k it); [exact Hk|]. rewrite Ech. apply HC.
    - match goal with |- walk _ _ (heads (?r :: ?mid)) => change (heads (r :: mid)) with (k :: heads mid) end.
      rewrite heads_concat. apply (walk_item _ k it); [exact Hk|]. apply HC.
  Qed.

  (** ** Width *)
  Lemma truncate_width s : cuts_well S -> (0 < width)%Z -> (s_width S (truncate_line S s width) <= width)%Z.
  Proof. intros Hcut Hw. unfold truncate_line. destruct (Z.leb_spec width 0); [lia|]. cbn [orb]. destruct (Z.leb_spec (s_width S s) width); [assumption|]. apply Hcut. exact Hw. Qed.
  Lemma render_width : cuts_well S -> (0 < width)%Z -> forall fuel k indent depth, Forall (fun r => (s_width S (r_text r) <= width)%Z) (render fuel v width k indent depth).
  Proof.
    intros Hcut Hw. induction fuel as [|fuel IH]; intros k indent depth; [constructor|]. cbn [render_item]. destruct (v_items v !! k) as [it|]; [|constructor].
    assert (HC : forall ind d cs, Forall (fun r => (s_width S (r_text r) <= width)%Z) (concat (map (fun ck => render fuel v width ck ind d) cs))).
    { intros ind d cs. induction cs as [|c cs IHc]; [constructor|]. cbn [map concat]. apply Forall_app. split; [apply IH|exact IHc]. }
    destruct depth as [|depth].
    - constructor; [cbn [r_text]; apply truncate_width; assumption|]. apply Forall_app. split; [|repeat constructor; cbn [r_text]; apply truncate_width; assumption].
      destruct (i_children it) as [|c cs]; [|apply HC]. apply Forall_app. split.
      + apply Forall_lookup. intros i r Hr. rewrite list_lookup_imap in Hr. apply fmap_Some in Hr as (l & _ & ->). cbn [r_text]. unfold box_line. apply truncate_width; assumption.
      + match goal with |- context [if ?b then _ else _] => destruct b end; [|constructor]. apply Forall_forall. intros r Hr. apply elem_of_list_In, repeat_spec in Hr as ->. cbn [r_text]. apply truncate_width; assumption.
    - constructor; [|apply HC]. cbn [r_text]. unfold compact_line. destruct (i_done it), (i_err it); try (apply truncate_width; assumption);
        (destruct (snippet _); [apply truncate_width; assumption|]; match goal with |- context [if (?b <=? 0)%Z then _ else _] => destruct (b <=? 0)%Z end; apply truncate_width; assumption).
  Qed.
End Rows.
