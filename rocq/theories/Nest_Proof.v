From Verif Require Import Base Utf8_Model Utf8_Spec Utf8_Proof Out_Model Out_Spec Out_Proof Nest_Model.

Lemma upd_same {A} (f : nat -> A) k v : upd f k v k = v.
Proof. unfold upd. rewrite decide_True by reflexivity. reflexivity. Qed.
Lemma upd_other {A} (f : nat -> A) k v x : x <> k -> upd f k v x = f x.
Proof. intros H. unfold upd. rewrite decide_False by exact H. reflexivity. Qed.

(** ** Mutexes *)
Section Nest.
  Context (a : ansi_lib) (ws : list nwriter) (Hnest : nested ws).

  Definition mutex_of (i k : nat) : Prop := exists w, ws !! i = Some w /\ n_mutex w = k.
  (** The calls a goroutine is in: each one made by the next. *)
  Fixpoint stacked (fs : list frame) : Prop :=
    match fs with
    | [] => True
    | f :: r => (exists w, ws !! f_writer f = Some w) /\ match r with [] => True | g :: _ => exists w, ws !! f_writer g = Some w /\ n_dest w = Into (f_writer f) end /\ stacked r
    end.
  Lemma stacked_less f fs k : stacked (f :: fs) -> mutex_of (f_writer f) k -> forall g k', g ∈ fs -> mutex_of (f_writer g) k' -> k < k'.
  Proof.
    revert f k. induction fs as [|h fs IH]; intros f k Hs (w & Hw & <-) g k' Hg Hk'; [apply elem_of_nil in Hg as []|].
    destruct Hs as (_ & (wh & Hwh & Hd) & Hs). destruct (Hnest _ _ _ Hwh Hd) as (w' & Hw' & Hlt). assert (w' = w) as -> by congruence. clear Hw'.
    apply elem_of_cons in Hg as [->|Hg]; [destruct Hk' as (w2 & Hw2 & <-); assert (w2 = wh) as -> by congruence; exact Hlt|].
    etransitivity; [exact Hlt|]. eapply (IH h); [exact Hs|exists wh; auto|exact Hg|exact Hk'].
  Qed.
  Record locks (s : nstate) : Prop := Locks {
    lk_stack : forall t th, ns_threads s !! t = Some th -> stacked (t_stack th);
    lk_held : forall k t, ns_mutex s k = Some t <-> exists th f, ns_threads s !! t = Some th /\ f ∈ t_stack th /\ mutex_of (f_writer f) k }.
  Lemma locks_unique s t t' th th' f f' k : locks s -> ns_threads s !! t = Some th -> ns_threads s !! t' = Some th' -> f ∈ t_stack th -> f' ∈ t_stack th' ->
    mutex_of (f_writer f) k -> mutex_of (f_writer f') k -> t = t' /\ f = f'.
  Proof.
    intros [Hs Hh] Ht Ht' Hf Hf' Hk Hk'. assert (H1 : ns_mutex s k = Some t) by (apply Hh; eauto). assert (H2 : ns_mutex s k = Some t') by (apply Hh; eauto 10). assert (t = t') as <- by congruence. split; [reflexivity|].
    assert (th' = th) as -> by congruence. specialize (Hs _ _ Ht). clear - Hnest Hs Hf Hf' Hk Hk'. induction (t_stack th) as [|g fs IH]; [apply elem_of_nil in Hf as []|].
    apply elem_of_cons in Hf as [->|Hf]; apply elem_of_cons in Hf' as [->|Hf'].
    - reflexivity.
    - pose proof (stacked_less _ _ _ Hs Hk _ _ Hf' Hk'). lia.
    - pose proof (stacked_less _ _ _ Hs Hk' _ _ Hf Hk). lia.
    - apply IH; [apply Hs|exact Hf|exact Hf'].
  Qed.
  Lemma locks_start calls : locks (nstart calls).
  Proof.
    assert (H : forall t th, map (fun cs => Thread cs []) calls !! t = Some th -> t_stack th = []) by (intros t th H; rewrite list_lookup_fmap in H; apply fmap_Some in H as (cs & _ & ->); reflexivity).
    split; simpl.
    - intros t th Ht. rewrite (H _ _ Ht). exact I.
    - intros k t. split; [discriminate|]. intros (th & f & Ht & Hf & _). rewrite (H _ _ Ht) in Hf. apply elem_of_nil in Hf as [].
  Qed.
  (** Replacing the stack of a thread: the mutexes it gains or loses. *)
  Lemma lookup_upd {A} (l : list A) t x y t' z : l !! t = Some x -> <[t := y]> l !! t' = Some z -> (t' = t /\ z = y) \/ (t' <> t /\ l !! t' = Some z).
  Proof.
    intros Ht H. destruct (decide (t' = t)) as [->|Hne]; [left|right].
    - rewrite list_lookup_insert in H by (eapply lookup_lt_Some; exact Ht). injection H as <-. auto.
    - rewrite list_lookup_insert_ne in H by congruence. auto.
  Qed.
  Lemma locks_same s th' t th p d m : locks s -> ns_threads s !! t = Some th -> m = ns_mutex s ->
    stacked (t_stack th') -> map f_writer (t_stack th') = map f_writer (t_stack th) -> locks (NState m p d (<[t := th']> (ns_threads s))).
  Proof.
    intros [Hs Hh] Ht -> Hst Hm. assert (Hmem : forall (l l' : list frame) f, map f_writer l = map f_writer l' -> f ∈ l -> exists f', f' ∈ l' /\ f_writer f' = f_writer f).
    { intros l l' f E Hf. assert (H : f_writer f ∈ map f_writer l') by (rewrite <- E; apply elem_of_list_In, in_map, elem_of_list_In, Hf). apply elem_of_list_In, in_map_iff in H as (f' & E' & H'). exists f'. split; [apply elem_of_list_In; exact H'|exact E']. }
    split; cbn [ns_threads ns_mutex].
    - intros t' x Hx. destruct (lookup_upd _ _ _ _ _ _ Ht Hx) as [[_ ->]|[_ H]]; [exact Hst|eapply Hs; exact H].
    - intros k t'. rewrite Hh. split.
      + intros (x & f & Hx & Hf & Hk). destruct (decide (t' = t)) as [->|Hne].
        * assert (x = th) as -> by congruence. destruct (Hmem _ _ f (eq_sym Hm) Hf) as (f' & Hf' & E). exists th', f'. split; [apply list_lookup_insert; eapply lookup_lt_Some; exact Ht|]. split; [exact Hf'|rewrite E; exact Hk].
        * exists x, f. split; [rewrite list_lookup_insert_ne by congruence; exact Hx|auto].
      + intros (x & f & Hx & Hf & Hk). destruct (lookup_upd _ _ _ _ _ _ Ht Hx) as [[-> ->]|[_ H]]; [|eauto 10]. destruct (Hmem _ _ f Hm Hf) as (f' & Hf' & E). exists th, f'. split; [exact Ht|]. split; [exact Hf'|rewrite E; exact Hk].
  Qed.
  Lemma locks_push s cs t th f fs' p d w : locks s -> ns_threads s !! t = Some th -> ws !! f_writer f = Some w -> ns_mutex s (n_mutex w) = None ->
    stacked (f :: fs') -> map f_writer fs' = map f_writer (t_stack th) -> locks (NState (upd (ns_mutex s) (n_mutex w) (Some t)) p d (<[t := Thread cs (f :: fs')]> (ns_threads s))).
  Proof.
    intros Hl Ht Hw Hfree Hst Hm. pose proof (locks_same s (Thread cs fs') t th p d _ Hl Ht eq_refl (proj2 (proj2 Hst)) Hm) as [Hs Hh]. destruct Hl as [Hs0 Hh0]. cbn [ns_threads ns_mutex] in *.
    split; cbn [ns_threads ns_mutex].
    - intros t' x Hx. destruct (lookup_upd _ _ _ _ _ _ Ht Hx) as [[_ ->]|[_ H]]; [exact Hst|eapply Hs0; exact H].
    - intros k t'. destruct (decide (k = n_mutex w)) as [->|Hk].
      + rewrite upd_same. split.
        * intros [= <-]. exists (Thread cs (f :: fs')), f. split; [apply list_lookup_insert; eapply lookup_lt_Some; exact Ht|]. split; [left|exists w; auto].
        * intros (x & g & Hx & Hg & Hk). destruct (lookup_upd _ _ _ _ _ _ Ht Hx) as [[-> _]|[Hne H]]; [reflexivity|]. exfalso. assert (Hm' : ns_mutex s (n_mutex w) = Some t') by (apply Hh0; eauto). congruence.
      + rewrite upd_other by exact Hk. rewrite Hh. split.
        * intros (x & g & Hx & Hg & Hk'). destruct (lookup_upd _ _ _ _ _ _ Ht Hx) as [[-> ->]|[Hne H]].
          -- exists (Thread cs (f :: fs')), g. split; [apply list_lookup_insert; eapply lookup_lt_Some; exact Ht|]. split; [right; exact Hg|exact Hk'].
          -- exists x, g. split; [rewrite list_lookup_insert_ne by congruence; exact H|auto].
        * intros (x & g & Hx & Hg & Hk'). destruct (lookup_upd _ _ _ _ _ _ Ht Hx) as [[-> ->]|[Hne H]].
          -- cbn [t_stack] in Hg. apply elem_of_cons in Hg as [->|Hg]; [destruct Hk' as (w2 & Hw2 & <-); congruence|]. exists (Thread cs fs'), g. split; [apply list_lookup_insert; eapply lookup_lt_Some; exact Ht|auto].
          -- exists x, g. split; [rewrite list_lookup_insert_ne by congruence; exact H|auto].
  Qed.
  Lemma locks_pop s cs t f fs p d w : locks s -> ns_threads s !! t = Some (Thread cs (f :: fs)) -> ws !! f_writer f = Some w ->
    locks (NState (upd (ns_mutex s) (n_mutex w) None) p d (<[t := Thread cs fs]> (ns_threads s))).
  Proof.
    intros Hl Ht Hw. pose proof Hl as [Hs Hh]. split; cbn [ns_threads ns_mutex].
    - intros t' x Hx. destruct (lookup_upd _ _ _ _ _ _ Ht Hx) as [[_ ->]|[_ H]]; [apply (Hs _ _ Ht)|eapply Hs; exact H].
    - intros k t'. destruct (decide (k = n_mutex w)) as [->|Hk].
      + rewrite upd_same. split; [discriminate|]. intros (x & g & Hx & Hg & Hk). exfalso. destruct (lookup_upd _ _ _ _ _ _ Ht Hx) as [[-> ->]|[Hne H]].
        * pose proof (stacked_less f fs (n_mutex w) (Hs _ _ Ht) (ex_intro _ w (conj Hw eq_refl)) g _ Hg Hk). lia.
        * destruct (locks_unique s t t' _ _ f g (n_mutex w) Hl Ht H ltac:(left) Hg ltac:(exists w; auto) Hk). congruence.
      + rewrite upd_other by exact Hk. rewrite Hh. split.
        * intros (x & g & Hx & Hg & Hk'). destruct (decide (t' = t)) as [->|Hne].
          -- assert (x = Thread cs (f :: fs)) as -> by congruence. cbn [t_stack] in Hg. apply elem_of_cons in Hg as [->|Hg]; [destruct Hk' as (w2 & Hw2 & <-); congruence|]. exists (Thread cs fs), g. split; [apply list_lookup_insert; eapply lookup_lt_Some; exact Ht|auto].
          -- exists x, g. split; [rewrite list_lookup_insert_ne by congruence; exact Hx|auto].
        * intros (x & g & Hx & Hg & Hk'). destruct (lookup_upd _ _ _ _ _ _ Ht Hx) as [[-> ->]|[Hne H]]; [|eauto 10]. exists (Thread cs (f :: fs)), g. split; [exact Ht|]. split; [right; exact Hg|exact Hk'].
  Qed.
  Lemma locks_step s s' : locks s -> nstep a ws s s' -> locks s'.
  Proof.
    intros Hl H. pose proof (lk_stack _ Hl) as Hst. destruct H as [m p d ts t i o cs w ls p' Ht Hw Hm Hc|m p d ts t cs i l pend rest w j w' ls p' Ht Hw Hd Hw' Hm Hc|m p d ts t cs i c l pend rest w e Ht Hw Hd|m p d ts t cs i pend rest w e Ht Hw Hd|m p d ts t cs i rest w Ht Hw].
    - apply (locks_push (NState m p d ts) cs t _ (Frame i _) [] _ _ w Hl Ht Hw Hm); [|reflexivity]. simpl. eauto.
    - specialize (Hst _ _ Ht). cbn [t_stack] in Hst. apply (locks_push (NState m p d ts) cs t _ (Frame j _) (Frame i pend :: rest) _ _ w' Hl Ht Hw' Hm); [|reflexivity]. cbn [stacked f_writer] in *. split; [eauto|]. split; [eauto|exact Hst].
    - specialize (Hst _ _ Ht). apply (locks_same (NState m p d ts) _ t _ _ _ _ Hl Ht); [reflexivity|exact Hst|reflexivity].
    - specialize (Hst _ _ Ht). apply (locks_same (NState m p d ts) _ t _ _ _ _ Hl Ht); [reflexivity|exact Hst|reflexivity].
    - apply (locks_pop (NState m p d ts) cs t (Frame i []) rest _ _ w Hl Ht Hw).
  Qed.
  Lemma locks_reach calls s : rtc (nstep a ws) (nstart calls) s -> locks s.
  Proof. intros H. apply (rtc_ind_r (fun x => locks x) _ (locks_start calls)) in H; [exact H|]. intros x y _ Hxy Hx. eapply locks_step; eassumption. Qed.

  (** ** Nobody waits for ever *)
  Lemma who_goes_on calls s : Forall (Forall (fun c => exists w, ws !! c.1 = Some w)) calls -> rtc (nstep a ws) (nstart calls) s ->
    (exists t th th' s', ns_threads s !! t = Some th /\ t_stack th <> [] /\ nstep a ws s s' /\ ns_threads s' = <[t := th']> (ns_threads s)) \/
    (forall t th, ns_threads s !! t = Some th -> t_stack th = [] /\ (t_calls th <> [] -> exists th' s', nstep a ws s s' /\ ns_threads s' = <[t := th']> (ns_threads s))).
  Proof.
    intros Hcalls Hr. pose proof (locks_reach calls s Hr) as Hl.
    assert (Hc : forall t th, ns_threads s !! t = Some th -> Forall (fun c => exists w, ws !! c.1 = Some w) (t_calls th)).
    { refine (rtc_ind_r (fun x => forall t th, ns_threads x !! t = Some th -> Forall (fun c => exists w, ws !! c.1 = Some w) (t_calls th)) (nstart calls) _ _ s Hr).
      - clear Hr Hl. intros t th Ht. simpl in Ht. rewrite list_lookup_fmap in Ht. apply fmap_Some in Ht as (cs & Hcs & ->). rewrite Forall_forall in Hcalls. apply Hcalls. eapply elem_of_list_lookup_2. exact Hcs.
      - intros x y _ Hxy IH t' th' Ht'. destruct Hxy; cbn [ns_threads] in *; match goal with H : _ !! _ = Some (Thread _ _) |- _ => destruct (lookup_upd _ _ _ _ _ _ H Ht') as [[_ ->]|[_ H']]; [specialize (IH _ _ H)|exact (IH _ _ H')] end; cbn [t_calls] in *; try exact IH. apply Forall_cons in IH as [_ IH]. exact IH. }
    destruct Hl as [Hst Hh]. clear Hr Hcalls.
    (* the least mutex that is held *)
    assert (Hleast : (exists k t, ns_mutex s k = Some t /\ forall k', k' < k -> ns_mutex s k' = None) \/ forall t th, ns_threads s !! t = Some th -> t_stack th = []).
    { destruct (decide (Forall (fun th => t_stack th = []) (ns_threads s))) as [H|H].
      - right. intros t th Ht. rewrite Forall_forall in H. apply H. eapply elem_of_list_lookup_2. exact Ht.
      - left. assert (Hex : exists k t, ns_mutex s k = Some t).
        { apply not_Forall_Exists in H; [|intros th; destruct (t_stack th); [left; reflexivity|right; discriminate]]. apply Exists_exists in H as (th & Hin & Hne). apply elem_of_list_lookup in Hin as [t Ht]. simpl in Hne.
          destruct (t_stack th) as [|f fs] eqn:Ef; [congruence|]. pose proof (Hst _ _ Ht) as Hs. rewrite Ef in Hs. destruct Hs as ((w & Hw) & _). exists (n_mutex w), t. apply Hh. exists th, f. rewrite Ef. split; [exact Ht|]. split; [left|exists w; auto]. }
        destruct Hex as (k & t & Hk). revert t Hk. induction k as [k IH] using lt_wf_ind. intros t Hk.
        destruct (decide (Exists (fun k' => ns_mutex s k' <> None) (seq 0 k))) as [He|He].
        + apply Exists_exists in He as (k' & Hin & Hk'). apply elem_of_seq in Hin. destruct (ns_mutex s k') as [t'|] eqn:E; [|congruence]. eapply (IH k'); [lia|exact E].
        + exists k, t. split; [exact Hk|]. intros k' Hlt. destruct (ns_mutex s k') eqn:E; [|reflexivity]. exfalso. apply He. apply Exists_exists. exists k'. split; [apply elem_of_seq; lia|congruence]. }
    destruct Hleast as [(k & t & Hk & Hleast)|Hnone].
    - left. destruct s as [m p d ts]. cbn [ns_mutex ns_threads] in *. pose proof Hk as Hk'. apply Hh in Hk' as ([cs fs] & f & Ht & Hf & Hkf). pose proof (Hst _ _ Ht) as Hs. cbn [t_stack] in *.
      destruct fs as [|g fs]; [apply elem_of_nil in Hf as []|].
      assert (f = g) as ->.
      { apply elem_of_cons in Hf as [->|Hf]; [reflexivity|]. exfalso. pose proof Hs as ((w & Hw) & _). pose proof (stacked_less g fs _ Hs (ex_intro _ w (conj Hw eq_refl)) f k Hf Hkf) as Hlt. specialize (Hleast _ Hlt).
        assert (m (n_mutex w) = Some t) by (apply Hh; exists (Thread cs (g :: fs)), g; split; [exact Ht|]; split; [left|exists w; auto]). congruence. }
      destruct Hkf as (w & Hw & <-). destruct g as [i [|l pend]]; cbn [f_writer] in *.
      + do 4 eexists. split; [exact Ht|]. split; [discriminate|]. split; [eapply n_return; eassumption|reflexivity].
      + destruct (n_dest w) as [e|j] eqn:Hd.
        * destruct l as [|c l]; do 4 eexists; (split; [exact Ht|]; split; [discriminate|]); (split; [first [eapply n_written; eassumption|eapply n_byte; eassumption]|reflexivity]).
        * destruct (Hnest _ _ _ Hw Hd) as (w' & Hw' & Hlt). destruct (wcall (p j) (WWrite l)) as [ls p'] eqn:Ec. do 4 eexists. split; [exact Ht|]. split; [discriminate|]. split; [eapply n_inner; try eassumption; apply Hleast; exact Hlt|reflexivity].
    - right. intros t th Ht. specialize (Hnone _ _ Ht) as Hn. split; [exact Hn|]. intros Hne. specialize (Hc _ _ Ht). destruct th as [cs fs]. cbn [t_stack t_calls] in *. subst fs. destruct cs as [|[i o] cs]; [congruence|]. apply Forall_cons in Hc as [(w & Hw) _]. simpl in Hw. destruct s as [m p d ts]. cbn [ns_threads ns_mutex] in *.
      destruct (wcall (p i) o) as [ls p'] eqn:Ec. do 2 eexists. split; [eapply n_call; try eassumption|reflexivity]. destruct (m (n_mutex w)) as [t'|] eqn:Em; [|reflexivity]. exfalso. apply Hh in Em as (th' & f & Ht' & Hf & _). rewrite (Hnone _ _ Ht') in Hf. apply elem_of_nil in Hf as [].
  Qed.
  Lemma progress calls s : Forall (Forall (fun c => exists w, ws !! c.1 = Some w)) calls -> rtc (nstep a ws) (nstart calls) s -> nfinished s \/ exists s', nstep a ws s s'.
  Proof.
    intros Hc Hr. destruct (who_goes_on calls s Hc Hr) as [(t & th & th' & s' & _ & _ & H & _)|H]; [eauto|].
    destruct (decide (Forall (fun th => t_calls th = []) (ns_threads s))) as [Hn|Hn].
    - left. apply Forall_forall. intros th Hin. rewrite Forall_forall in Hn. split; [apply Hn; exact Hin|]. apply elem_of_list_lookup in Hin as [t Ht]. apply (H _ _ Ht).
    - right. apply not_Forall_Exists in Hn; [|intros th; destruct (t_calls th); [left; reflexivity|right; discriminate]]. apply Exists_exists in Hn as (th & Hin & Hne). apply elem_of_list_lookup in Hin as [t Ht]. destruct (proj2 (H _ _ Ht) Hne) as (th' & s' & Hs & _). eauto.
  Qed.
End Nest.
