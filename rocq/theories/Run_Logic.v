(** A program logic for [prog]: what a goroutine tree does, whatever the rest of
    the run does at the same time. Each task (and each item of a parallel block)
    has an owner, the goroutine that claimed it; only the owner makes steps
    in its name. *)
From Verif Require Import Base Interp_Model Cond_Model Types_Model Path_Model Run_Model.

(** ** Basic facts about steps *)
Lemma ret_nostep r ev p : ~ pstep (Ret r) ev p.
Proof. inversion 1. Qed.

Definition vis_inv (p : prog) (ev : event) (p' : prog) : Prop :=
  match p with Vis e k => exists r, ev = obs e r /\ p' = k r | _ => True end.
Lemma pstep_vis p ev p' : pstep p ev p' -> vis_inv p ev p'.
Proof. destruct 1; simpl; eauto. Qed.

Lemma pstep_bind q ev q' f : pstep q ev q' -> pstep (bind q f) ev (bind q' f).
Proof.
  destruct 1 as [e kk r| | | | | |t pa lim c chs log kk Hf]; simpl.
  2-6: econstructor; eassumption.
  - apply (ps_vis e (fun x => bind (kk x) f) r).
  - apply (ps_join t pa lim c chs log (fun l => bind (kk l) f) Hf).
Qed.

Lemma pstep_bind_inv q ev p' f : pstep (bind q f) ev p' -> (forall r, q <> Ret r) ->
  exists q', pstep q ev q' /\ p' = bind q' f.
Proof.
  destruct q as [r|e kk|t pa lim c chs log kk]; simpl; intros H Hn.
  - exfalso. exact (Hn r eq_refl).
  - destruct (pstep_vis _ _ _ H) as (r & -> & ->). eexists. split; [constructor|reflexivity].
  - inversion H; subst; eexists; (split; [econstructor; eassumption|reflexivity]).
Qed.

(** ** Histories *)

(** What the items of a block returned, in order of time. *)
Fixpoint returns (t : str) (pa : list nat) (h : hist) : list (nat * outcome) :=
  match h with
  | [] => []
  | OReturn t' pa' j r :: h' => if decide (t' = t /\ pa' = pa) then returns t pa h' ++ [(j, r)] else returns t pa h'
  | _ :: h' => returns t pa h'
  end.

(** How many items of a block were let through, and how many are over. *)
Fixpoint slots (t : str) (pa : list nat) (h : hist) : nat :=
  match h with
  | [] => 0
  | OSlot t' pa' _ :: h' => if decide (t' = t /\ pa' = pa) then S (slots t pa h') else slots t pa h'
  | _ :: h' => slots t pa h'
  end.
Fixpoint frees (t : str) (pa : list nat) (h : hist) : nat :=
  match h with
  | [] => 0
  | OFree t' pa' _ :: h' => if decide (t' = t /\ pa' = pa) then S (frees t pa h') else frees t pa h'
  | _ :: h' => frees t pa h'
  end.

Lemma cancelledb_suffix h h' c : h `suffix_of` h' -> cancelledb h c = true -> cancelledb h' c = true.
Proof.
  intros [k ->] H. induction k as [|ev k IH]; [exact H|]. simpl. destruct ev; try exact IH.
  rewrite IH. apply orb_true_r.
Qed.

Lemma cancelledb_spec h c : cancelledb h c = true <-> cancelled h c.
Proof.
  induction h as [|ev h IH].
  - split; [discriminate|]. intros (i & _ & H). inversion H.
  - assert (Hskip : (forall i, ev <> OCancel i) -> cancelled (ev :: h) c <-> cancelled h c).
    { intros Hne. split; intros (i & Hi & H); exists i; (split; [exact Hi|]); [|right; exact H].
      inversion H; subst; [exfalso; eapply Hne; reflexivity|assumption]. }
    destruct ev; simpl; try (rewrite IH, Hskip; [reflexivity|discriminate]).
    rewrite orb_true_iff, bool_decide_eq_true, IH. split.
    + intros [H|(j & Hj & H)]; [exists i; split; [exact H|left]|exists j; split; [exact Hj|right; exact H]].
    + intros (j & Hj & H). inversion H; subst; [left; exact Hj|right; exists j; auto].
Qed.

Lemma status_claimed h h' n : h `suffix_of` h' -> status_of h n <> Fresh -> status_of h' n <> Fresh.
Proof.
  intros [k ->] H. induction k as [|ev k IH]; [exact H|]. simpl. destruct ev; try exact IH.
  - destruct s; try exact IH. destruct (decide _); [discriminate|exact IH].
  - destruct (decide _); [discriminate|exact IH].
Qed.

Lemma suffix_cons_self {A} (x : A) l : l `suffix_of` x :: l.
Proof. exists [x]. reflexivity. Qed.
Global Hint Resolve suffix_cons_self : core.

Lemma suffix_elem {A} (x : A) l l' : l `suffix_of` l' -> x ∈ l -> x ∈ l'.
Proof. intros [k ->] H. apply elem_of_app. right. exact H. Qed.

(** ** Owners *)

(** Task, item, and whether it is about the slot of a parallel item. *)
Notation token := (str * list nat * bool)%type.
Notation own := (token -> Prop).

(** In whose name an event happens. Claims, reads and the like are free. *)
Definition tok (ev : event) : option token :=
  match ev with
  | ODone t | OSkipTask t | OHeader t _ _ => Some (t, [], false)
  | OCheck t i _ _ => Some (t, [i], false)
  | OAlloc t p _ _ | OStat t p _ _ | OWrite t p _ _ _ | OSkip t p _ | OEcho t p _ _ | OEnd t p _ | OPrompt t p _ _ | OLog t p _ _ _ | OWould t p _ | OJoin t p | ORet t p _ => Some (t, p, false)
  | OStart x _ => Some (x_task x, x_path x, false)
  | OSlot t p j | OGiveUp t p j _ | OReturn t p j _ | OFree t p j => Some (t, p ++ [j], true)
  | _ => None
  end.

Definition gain (ev : event) : own :=
  fun x => match ev with OClaim t _ Fresh => x.1.1 = t | _ => False end.
Definition touches (O : own) (ev : event) : Prop := match tok ev with Some x => O x | None => False end.
Definition permitted (O : own) (ev : event) : Prop := match tok ev with Some x => O x | None => True end.
Definition plus (O : own) (ev : event) : own := fun x => O x \/ gain ev x.
Definition within (O O' : own) : Prop := forall x, O x -> O' x.
Definition known (O : own) (h : hist) : Prop := forall x, O x -> status_of h x.1.1 <> Fresh.

(** All of task [t]; item [pa] of task [t] and what is below it; without its slot. *)
Definition owns_task (t : str) : own := fun x => x.1.1 = t.
Definition owns_item (t : str) (pa : list nat) : own := fun x => x.1.1 = t /\ pa `prefix_of` x.1.2.
Definition child (t : str) (pa : list nat) (j : nat) : own :=
  fun x => owns_item t (pa ++ [j]) x /\ x <> (t, pa ++ [j], true).

(** Nobody touches the slot of item [j]. *)
Definition slot_kept (t : str) (pa : list nat) (j : nat) (ev : event) : Prop := tok ev <> Some (t, pa ++ [j], true).

Section Safe.
  (** [G]: what every step of the run satisfies. *)
  Context (g : gmap str str) (G : hist -> event -> Prop).

  Inductive good : hist -> Prop :=
  | good_nil : good []
  | good_cons h ev : good h -> allowed g h ev -> G h ev -> good (ev :: h).

  Lemma good_suffix h h' : h `suffix_of` h' -> good h' -> good h.
  Proof. intros [k ->]. induction k as [|ev k IH]; [auto|]. simpl. inversion 1; auto. Qed.

  Lemma good_in h ev : good h -> ev ∈ h -> exists h0, ev :: h0 `suffix_of` h /\ good h0 /\ allowed g h0 ev /\ G h0 ev.
  Proof.
    induction 1 as [|h ev' Hg IH Ha HG]; intros Hin; [inversion Hin|]. inversion Hin; subst.
    - exists h. split; [reflexivity|auto].
    - destruct IH as (h0 & Hs & ?); [assumption|]. exists h0. split; [apply suffix_cons_r; exact Hs|assumption].
  Qed.

  (** What others, restricted to [E], may have added. *)
  Definition ext (E : event -> Prop) (O : own) (h h' : hist) : Prop :=
    exists k, h' = k ++ h /\ Forall (fun ev => ~ touches O ev /\ E ev) k.
  Definition any (ev : event) : Prop := True.

  Lemma ext_refl E O h : ext E O h h.
  Proof. exists []. split; [reflexivity|constructor]. Qed.
  Lemma ext_suffix E O h h' : ext E O h h' -> h `suffix_of` h'.
  Proof. intros (k & -> & _). exists k. reflexivity. Qed.
  Lemma ext_trans E O h1 h2 h3 : ext E O h1 h2 -> ext E O h2 h3 -> ext E O h1 h3.
  Proof. intros (k1 & -> & F1) (k2 & -> & F2). exists (k2 ++ k1). rewrite app_assoc. split; [reflexivity|]. apply Forall_app; auto. Qed.
  Lemma ext_within E O O' h h' : within O O' -> ext E O' h h' -> ext E O h h'.
  Proof.
    intros Hw (k & -> & F). exists k. split; [reflexivity|]. eapply Forall_impl; [exact F|]. intros ev [A B]. split; [|exact B].
    intros H. apply A. unfold touches in *. destruct (tok ev); [auto|exact H].
  Qed.
  Lemma ext_any E O h h' : ext E O h h' -> ext any O h h'.
  Proof. intros (k & -> & F). exists k. split; [reflexivity|]. eapply Forall_impl; [exact F|]. intros ev [A B]. split; [exact A|exact I]. Qed.
  Lemma ext_cons E O h h' ev : ext E O h h' -> ~ touches O ev -> E ev -> ext E O h (ev :: h').
  Proof. intros (k & -> & F) H HE. exists (ev :: k). split; [reflexivity|]. constructor; auto. Qed.

  Lemma ext_in E F h h' ev : ext E F h h' -> ev ∈ h' -> touches F ev -> ev ∈ h.
  Proof.
    intros (q & -> & H) Hin Ht. apply elem_of_app in Hin as [Hin|Hin]; [|exact Hin].
    rewrite Forall_forall in H. destruct (H _ Hin). contradiction.
  Qed.

  Lemma known_suffix O h h' : h `suffix_of` h' -> known O h -> known O h'.
  Proof. intros Hs Hk x Hx. eapply status_claimed; [exact Hs|auto]. Qed.

  Lemma known_plus O h ev : known O h -> known (plus O ev) (ev :: h).
  Proof.
    intros Hk x [Hx|Hx]; [eapply known_suffix; [apply suffix_cons_self|exact Hk|exact Hx]|].
    destruct ev; simpl in Hx; try contradiction. destruct s; try contradiction. simpl. rewrite decide_True by auto. discriminate.
  Qed.

  Notation state := (own * hist * prog)%type.
  Inductive estep (E : event -> Prop) : state -> state -> Prop :=
  | es_own O h p ev p' : pstep p ev p' -> allowed g h ev -> G h ev -> permitted O ev ->
      estep E (O, h, p) (plus O ev, ev :: h, p')
  | es_env O h p ev : allowed g h ev -> G h ev -> E ev -> ~ touches O ev -> estep E (O, h, p) (O, ev :: h, p).

  (** Whatever the others do, every step of [p] satisfies [G] and is made in the
      name of something [p] owns, and when it returns [Q] holds. *)
  Definition safe (E : event -> Prop) (Q : outcome -> hist -> Prop) (O : own) (h : hist) (p : prog) : Prop :=
    good h -> known O h -> forall O' h' p', rtc (estep E) (O, h, p) (O', h', p') ->
      (forall ev p2, pstep p' ev p2 -> allowed g h' ev -> G h' ev /\ permitted O' ev) /\ (forall r, p' = Ret r -> Q r h').

  Section Env.
  Context (E : event -> Prop).
  Local Notation safe := (safe E).
  Local Notation ext := (ext E).
  Local Notation estep := (estep E).

  Lemma estep_inv (P : own -> hist -> prog -> Prop) O h p y : estep (O, h, p) y ->
    (forall ev p', pstep p ev p' -> allowed g h ev -> G h ev -> permitted O ev -> P (plus O ev) (ev :: h) p') ->
    (forall ev, allowed g h ev -> G h ev -> E ev -> ~ touches O ev -> P O (ev :: h) p) ->
    P y.1.1 y.1.2 y.2.
  Proof. intros H H1 H2. inversion H; subst; simpl; auto. Qed.

  Lemma safe_coind (Q : outcome -> hist -> Prop) (I : own -> hist -> prog -> Prop) :
    (forall O h p, I O h p -> good h -> known O h ->
      (forall ev p2, pstep p ev p2 -> allowed g h ev -> G h ev /\ permitted O ev /\ I (plus O ev) (ev :: h) p2) /\
      (forall ev, allowed g h ev -> G h ev -> E ev -> ~ touches O ev -> I O (ev :: h) p) /\
      (forall r, p = Ret r -> Q r h)) ->
    forall O h p, I O h p -> safe Q O h p.
  Proof.
    intros Hstep O h p HI Hg Hk O' h' p' Hr.
    assert (HI' : I O' h' p' /\ good h' /\ known O' h').
    { remember (O, h, p) as x eqn:Ex. remember (O', h', p') as y eqn:Ey. revert O h p Ex HI Hg Hk O' h' p' Ey.
      induction Hr as [x|x y z Hxy Hyz IH]; intros O h p Ex HI Hg Hk O' h' p' Ey.
      - rewrite Ey in Ex. injection Ex as -> -> ->. auto.
      - subst x. destruct (Hstep _ _ _ HI Hg Hk) as (H1 & H2 & _).
        destruct y as [[Oy hy] py].
        assert (HIy : I Oy hy py /\ good hy /\ known Oy hy).
        { apply (estep_inv (fun O h p => I O h p /\ good h /\ known O h) _ _ _ _ Hxy).
          - intros ev p2 Hs Ha HG Hp. destruct (H1 _ _ Hs Ha) as (_ & _ & HI2).
            split; [exact HI2|]. split; [constructor; assumption|apply known_plus; exact Hk].
          - intros ev Ha HG HE Ht. split; [auto|]. split; [constructor; assumption|].
            eapply known_suffix; [apply suffix_cons_self|exact Hk]. }
        destruct HIy as (A & B & C). eapply (IH _ _ _ eq_refl A B C). exact Ey. }
    destruct HI' as (HI' & Hg' & Hk'). destruct (Hstep _ _ _ HI' Hg' Hk') as (H1 & _ & H3). split; [|exact H3].
    intros ev p2 Hs Ha. destruct (H1 ev p2 Hs Ha) as (A & B & _). auto.
  Qed.

  Lemma safe_unfold Q O h p : good h -> known O h -> safe Q O h p ->
    (forall ev p2, pstep p ev p2 -> allowed g h ev -> G h ev /\ permitted O ev /\ safe Q (plus O ev) (ev :: h) p2) /\
    (forall ev, allowed g h ev -> G h ev -> E ev -> ~ touches O ev -> safe Q O (ev :: h) p) /\
    (forall r, p = Ret r -> Q r h).
  Proof.
    intros Hg Hk Hs. destruct (Hs Hg Hk _ _ _ (rtc_refl _ _)) as [H1 H2]. split; [|split; [|exact H2]].
    - intros ev p2 Hp Ha. destruct (H1 _ _ Hp Ha) as [HG Hpm]. split; [exact HG|]. split; [exact Hpm|].
      intros Hg' Hk' O' h' p' Hr. apply (Hs Hg Hk O'). eapply rtc_l; [|exact Hr]. constructor; assumption.
    - intros ev Ha HG HE Ht Hg' Hk' O' h' p' Hr. apply (Hs Hg Hk O'). eapply rtc_l; [|exact Hr]. apply es_env; assumption.
  Qed.

  Lemma safe_mono Q O O' h p : within O O' -> safe Q O h p -> safe Q O' h p.
  Proof.
    intros Hw Hs. apply (safe_coind Q (fun O' h p => exists O, within O O' /\ safe Q O h p)); [|eauto].
    clear. intros O' h p (O & Hw & Hs) Hg Hk'.
    assert (Hk : known O h) by (intros x Hx; auto).
    destruct (safe_unfold _ _ _ _ Hg Hk Hs) as (H1 & H2 & H3). split; [|split; [|exact H3]].
    - intros ev p2 Hp Ha. destruct (H1 _ _ Hp Ha) as (A & B & C). split; [exact A|]. split.
      + unfold permitted in *. destruct (tok ev); auto.
      + exists (plus O ev). split; [|exact C]. intros x [Hx|Hx]; [left; auto|right; exact Hx].
    - intros ev Ha HG HE Ht. exists O. split; [exact Hw|]. apply H2; auto.
      intros H. apply Ht. unfold touches in *. destruct (tok ev); auto.
  Qed.

  Lemma safe_ext Q O h h' p : safe Q O h p -> ext O h h' -> good h' -> known O h -> safe Q O h' p.
  Proof.
    intros Hs (k & -> & F) Hg Hk. induction k as [|ev k IH]; [exact Hs|]. simpl in *.
    inversion Hg as [|h0 ev0 Hg' Ha HG]; subst. apply Forall_cons in F as [[Ht HE] F].
    assert (Hkk : known O (k ++ h)) by (eapply known_suffix; [|exact Hk]; exists k; reflexivity).
    apply (safe_unfold Q O (k ++ h) p Hg' Hkk); auto.
  Qed.

  Lemma safe_conseq (Q Q' : outcome -> hist -> Prop) O h p :
    (forall r h', h `suffix_of` h' -> good h' -> Q r h' -> Q' r h') -> safe Q O h p -> safe Q' O h p.
  Proof.
    intros HQ Hs.
    apply (safe_coind Q' (fun O1 h1 p1 => h `suffix_of` h1 /\ safe Q O1 h1 p1)); [|split; [reflexivity|exact Hs]].
    clear -HQ. intros O1 h1 p1 [Hsx Hs] Hg Hk. destruct (safe_unfold _ _ _ _ Hg Hk Hs) as (H1 & H2 & H3).
    assert (Hc : forall ev, h `suffix_of` ev :: h1) by (intros ev; apply suffix_cons_r; exact Hsx).
    split; [|split].
    - intros ev p2 Hp Ha. destruct (H1 _ _ Hp Ha) as (A & B & C). auto.
    - intros ev Ha HG HE Ht. auto.
    - intros r Hr. apply HQ; auto.
  Qed.

  Lemma safe_ret (Q : outcome -> hist -> Prop) O h r :
    (forall h', ext O h h' -> good h' -> Q r h') -> safe Q O h (Ret r).
  Proof.
    intros HQ. apply (safe_coind Q (fun O' h' p => p = Ret r /\ O' = O /\ ext O h h')); [|auto using ext_refl].
    intros O1 h1 p (-> & -> & Hs) Hg Hk. split; [|split].
    - intros ev p2 Hp. exfalso. eapply ret_nostep; exact Hp.
    - intros ev Ha HG HE Ht. split; [reflexivity|]. split; [reflexivity|]. apply ext_cons; assumption.
    - intros r' H. injection H as <-. auto.
  Qed.

  Lemma safe_vis Q O h e kk :
    (forall h' r, ext O h h' -> good h' -> known O h' -> allowed g h' (obs e r) ->
       G h' (obs e r) /\ permitted O (obs e r) /\ safe Q (plus O (obs e r)) (obs e r :: h') (kk r)) ->
    safe Q O h (Vis e kk).
  Proof.
    intros HV.
    apply (safe_coind Q (fun O' h' p => (p = Vis e kk /\ O' = O /\ ext O h h') \/ safe Q O' h' p)); [|left; auto using ext_refl].
    intros O1 h1 p [(-> & -> & Hs)|Hs] Hg Hk.
    - split; [|split; [|discriminate]].
      + intros ev p2 Hp Ha. destruct (pstep_vis _ _ _ Hp) as (r & -> & ->). destruct (HV h1 r Hs Hg Hk Ha) as (A & B & C). auto.
      + intros ev Ha HG HE Ht. left. split; [reflexivity|]. split; [reflexivity|]. apply ext_cons; assumption.
    - destruct (safe_unfold _ _ _ _ Hg Hk Hs) as (H1 & H2 & H3). split; [|split; [|exact H3]].
      + intros ev p2 Hp Ha. destruct (H1 _ _ Hp Ha) as (A & B & C). auto.
      + intros ev Ha HG HE Ht. right. auto.
  Qed.

  Lemma safe_bind Q O h p f : safe (fun r h' => safe Q O h' (f r)) O h p -> safe Q O h (bind p f).
  Proof.
    intros Hp. set (Q1 := fun r h' => safe Q O h' (f r)) in *.
    apply (safe_coind Q (fun O' h' q => (exists q', q = bind q' f /\ within O O' /\ safe Q1 O' h' q') \/ safe Q O' h' q));
      [|left; exists p; split; [reflexivity|]; split; [intros x Hx; exact Hx|exact Hp]].
    assert (Hsafe : forall O1 h q, safe Q O1 h q -> good h -> known O1 h ->
      (forall ev p2, pstep q ev p2 -> allowed g h ev -> G h ev /\ permitted O1 ev /\
         ((exists q', p2 = bind q' f /\ within O (plus O1 ev) /\ safe Q1 (plus O1 ev) (ev :: h) q') \/ safe Q (plus O1 ev) (ev :: h) p2)) /\
      (forall ev, allowed g h ev -> G h ev -> E ev -> ~ touches O1 ev ->
         (exists q', q = bind q' f /\ within O O1 /\ safe Q1 O1 (ev :: h) q') \/ safe Q O1 (ev :: h) q) /\
      (forall r, q = Ret r -> Q r h)).
    { intros O1 h1 q Hs Hg Hk. destruct (safe_unfold _ _ _ _ Hg Hk Hs) as (H1 & H2 & H3). split; [|split; [|exact H3]].
      - intros ev p2 Hq Ha. destruct (H1 _ _ Hq Ha) as (A & B & C). auto.
      - intros ev Ha HG HE Ht. right. auto. }
    intros O1 h1 q [(q' & -> & Hw & Hs)|Hs] Hg Hk; [|apply Hsafe; assumption].
    destruct (safe_unfold _ _ _ _ Hg Hk Hs) as (H1 & H2 & H3).
    assert (Hgo : (forall r, q' <> Ret r) ->
      (forall ev p2, pstep (bind q' f) ev p2 -> allowed g h1 ev -> G h1 ev /\ permitted O1 ev /\
         ((exists q'', p2 = bind q'' f /\ within O (plus O1 ev) /\ safe Q1 (plus O1 ev) (ev :: h1) q'') \/ safe Q (plus O1 ev) (ev :: h1) p2)) /\
      (forall ev, allowed g h1 ev -> G h1 ev -> E ev -> ~ touches O1 ev ->
         (exists q'', bind q' f = bind q'' f /\ within O O1 /\ safe Q1 O1 (ev :: h1) q'') \/ safe Q O1 (ev :: h1) (bind q' f))).
    { intros Hn. split.
      - intros ev p2 Hq Ha. apply pstep_bind_inv in Hq as (q2 & Hq & ->); [|exact Hn].
        destruct (H1 _ _ Hq Ha) as (A & B & C). split; [exact A|]. split; [exact B|]. left. exists q2. split; [reflexivity|].
        split; [|exact C]. intros x Hx. left. auto.
      - intros ev Ha HG HE Ht. left. exists q'. auto. }
    destruct q' as [r|e kk|t pa lim c chs log kk].
    - apply Hsafe; [|exact Hg|exact Hk]. apply safe_mono with O; [exact Hw|]. apply (H3 r eq_refl).
    - destruct Hgo as [A B]; [discriminate|]. split; [exact A|]. split; [exact B|discriminate].
    - destruct Hgo as [A B]; [discriminate|]. split; [exact A|]. split; [exact B|discriminate].
  Qed.

  (** [and_then]; the error case must survive what others do. *)
  Lemma safe_and_then (Q : outcome -> hist -> Prop) O h p wrap kk :
    (forall e h1 h2, h1 `suffix_of` h2 -> good h2 -> Q (Some e) h1 -> Q (Some e) h2) ->
    safe (fun r h' => match r with Some e => Q (Some (wrap e)) h' | None => safe Q O h' kk end) O h p ->
    safe Q O h (and_then p wrap kk).
  Proof.
    intros Hst H. apply safe_bind. eapply safe_conseq; [|exact H]. intros r h' _ Hg' Hr. destruct r as [e|]; [|exact Hr].
    apply safe_ret. intros h2 He Hg2. eapply Hst; [eapply ext_suffix; exact He|exact Hg2|exact Hr].
  Qed.

  Lemma safe_and_then' (Q : outcome -> hist -> Prop) O h p wrap kk :
    safe (fun r h' => match r with Some e => safe Q O h' (Ret (Some (wrap e))) | None => safe Q O h' kk end) O h p ->
    safe Q O h (and_then p wrap kk).
  Proof. intros H. apply safe_bind. eapply safe_conseq; [|exact H]. intros r h' _ Hg' Hr. destruct r as [e|]; exact Hr. Qed.

  End Env.

  (** *** Blocks *)
  Lemma item_disjoint t pa i j x : owns_item t (pa ++ [i]) x -> owns_item t (pa ++ [j]) x -> i = j.
  Proof.
    intros [_ [k1 E1]] [_ [k2 E2]]. rewrite E1 in E2. rewrite <- !app_assoc in E2. apply app_inv_head in E2. simpl in E2. congruence.
  Qed.

  (** Ownership kept back by the parent of a block. *)
  Definition rest (O : own) (t : str) (pa : list nat) (n : nat) : own := fun x => O x /\ forall j, j < n -> ~ owns_item t (pa ++ [j]) x.

  (** The state of a block after [h'], which began at [h]. *)
  Record block (O : own) (t : str) (pa : list nat) (n : nat) (h h' : hist) (log : list (nat * outcome)) : Prop := {
    bl_ext : ext any (rest O t pa n) h h';
    bl_log : returns t pa h' = returns t pa h ++ log }.

  Record joined (O : own) (t : str) (pa : list nat) (lim : nat) (c : ctx) (n : nat) (Qs : nat -> outcome -> hist -> Prop)
      (h h' : hist) (log : list (nat * outcome)) : Prop := {
    jn_block : block O t pa n h h' log;
    jn_nodup : NoDup log.*1;
    jn_in : forall j r, (j, r) ∈ log -> j < n /\ OReturn t pa j r ∈ h' /\ Qs j r h';
    jn_all : forall j, j < n -> j ∈ log.*1 \/ (lim <> 0 /\ cancelledb h' c = true /\ OGiveUp t pa j c ∈ h');
    jn_free : slots t pa h' + frees t pa h = slots t pa h + frees t pa h';
    jn_freed : forall j, j < n -> OFree t pa j ∈ h' \/ OGiveUp t pa j c ∈ h' }.

  Definition weight (c : cstat * prog) : nat := match c.1 with Running | Reported => 1 | _ => 0 end.

  Lemma active_sum chs : active chs = sum_list_with weight chs.
  Proof.
    unfold active. induction chs as [|[s p] chs IH]; [reflexivity|]. simpl. rewrite <- IH.
    destruct s; [rewrite filter_cons_False|rewrite filter_cons_True|rewrite filter_cons_True|rewrite filter_cons_False|rewrite filter_cons_False];
      simpl; auto; intros [H|H]; discriminate.
  Qed.

  Lemma active_insert chs j s p s' p' : chs !! j = Some (s, p) ->
    active (<[j := (s', p')]> chs) + weight (s, p) = active chs + weight (s', p').
  Proof.
    rewrite !active_sum. revert j. induction chs as [|x chs IH]; intros [|j] H; simpl in *; try discriminate.
    - injection H as ->. lia.
    - specialize (IH j H). lia.
  Qed.

  Lemma child_item t pa j : within (child t pa j) (owns_item t (pa ++ [j])).
  Proof. intros x [H _]. exact H. Qed.

  Lemma permitted_label (t : str) (pa : list nat) j ev O : tok ev = Some (t, pa ++ [j], true) -> within (owns_item t pa) O -> permitted O ev.
  Proof. intros Ht Hw. unfold permitted. rewrite Ht. apply Hw. split; [reflexivity|]. apply prefix_app_r. reflexivity. Qed.

  Lemma returns_other t pa ev h : (forall j r, ev <> OReturn t pa j r) -> returns t pa (ev :: h) = returns t pa h.
  Proof.
    intros Hn. destruct ev; try reflexivity. simpl. destruct (decide _) as [[-> ->]|]; [|reflexivity]. exfalso. eapply Hn. reflexivity.
  Qed.
  Lemma slots_other t pa ev h : (forall j, ev <> OSlot t pa j) -> slots t pa (ev :: h) = slots t pa h.
  Proof.
    intros Hn. destruct ev; try reflexivity. simpl. destruct (decide _) as [[-> ->]|]; [|reflexivity]. exfalso. eapply Hn. reflexivity.
  Qed.
  Lemma frees_other t pa ev h : (forall j, ev <> OFree t pa j) -> frees t pa (ev :: h) = frees t pa h.
  Proof.
    intros Hn. destruct ev; try reflexivity. simpl. destruct (decide _) as [[-> ->]|]; [|reflexivity]. exfalso. eapply Hn. reflexivity.
  Qed.

  Lemma safe_fork E Q O h t pa lim c ps kk (Qn Qs : nat -> outcome -> hist -> Prop) :
    within (owns_item t pa) O ->
    (forall j r h1, Qn j r h1 -> Qs j r h1) -> (forall j r h1 h2, h1 `suffix_of` h2 -> good h2 -> Qs j r h1 -> Qs j r h2) ->
    (* the items, once they have a slot *)
    (forall j p h', ps !! j = Some p -> ext any (owns_item t (pa ++ [j])) h h' -> good (OSlot t pa j :: h') ->
       safe (slot_kept t pa j) (Qn j) (child t pa j) (OSlot t pa j :: h') p) ->
    (* the bookkeeping of the block *)
    (forall h' log j, block O t pa (length ps) h h' log -> good h' -> j < length ps ->
       (ext any (owns_item t (pa ++ [j])) h h' -> lim = 0 \/ slots t pa h' + frees t pa h < lim + slots t pa h + frees t pa h' ->
          G h' (OSlot t pa j)) /\
       (ext any (owns_item t (pa ++ [j])) h h' -> lim <> 0 -> cancelledb h' c = true -> G h' (OGiveUp t pa j c)) /\
       (forall r, OSlot t pa j ∈ h' -> j ∉ log.*1 -> Qn j r h' -> G h' (OReturn t pa j r)) /\
       (j ∈ log.*1 -> (OFree t pa j ∈ h' -> OFree t pa j ∈ h) -> G h' (OFree t pa j))) ->
    (forall h' log, good h' -> joined O t pa lim c (length ps) Qs h h' log ->
       G h' (OJoin t pa) /\ safe E Q O (OJoin t pa :: h') (kk log)) ->
    good h -> known O h -> safe E Q O h (Fork t pa lim c (map (pair Waiting) ps) [] kk).
  Proof.
    intros HO Hns HQs Hps HG Hk Hg0 Hk0.
    set (n := length ps) in *.
    set (P := fun (O' : own) h' (log : list (nat * outcome)) (chs : list (cstat * prog)) =>
      length chs = n /\ within O O' /\ block O t pa n h h' log /\ NoDup log.*1 /\
      (forall j r, (j, r) ∈ log -> j < n /\ OReturn t pa j r ∈ h' /\ Qs j r h') /\
      slots t pa h' + frees t pa h = slots t pa h + frees t pa h' + active chs /\
      (exists Oc : nat -> own,
        (forall j, within (child t pa j) (Oc j)) /\
        (forall j, j < n -> within (Oc j) O') /\
        (forall j, j < n -> known (Oc j) h') /\
        (forall i j x, i < n -> j < n -> Oc i x -> Oc j x -> i = j) /\
        (forall j x, j < n -> Oc j x -> O x -> child t pa j x) /\
        (forall j s p, chs !! j = Some (s, p) ->
          match s with
          | Waiting => j ∉ log.*1 /\ ps !! j = Some p /\ ext any (owns_item t (pa ++ [j])) h h'
          | Running => j ∉ log.*1 /\ safe (slot_kept t pa j) (Qn j) (Oc j) h' p /\ OSlot t pa j ∈ h' /\ (OFree t pa j ∈ h' -> OFree t pa j ∈ h)
          | Reported => j ∈ log.*1 /\ (OFree t pa j ∈ h' -> OFree t pa j ∈ h)
          | Released => j ∈ log.*1 /\ OFree t pa j ∈ h'
          | Skipped => lim <> 0 /\ cancelledb h' c = true /\ OGiveUp t pa j c ∈ h'
          end))).
    assert (Hitem : forall j, within (owns_item t (pa ++ [j])) O).
    { intros j [x1 x2] [E1 E2]. apply HO. split; [exact E1|]. etransitivity; [|exact E2]. apply prefix_app_r. reflexivity. }
    assert (Hlab : forall j, O (t, pa ++ [j], true)).
    { intros j. apply (Hitem j). split; reflexivity. }
    assert (Hchild : forall j, within (child t pa j) O) by (intros j x Hx; eapply Hitem; apply child_item; exact Hx).
    apply (safe_coind E Q (fun O' h' p => (exists chs log, p = Fork t pa lim c chs log kk /\ P O' h' log chs) \/ safe E Q O' h' p)).
    2:{ left. eexists _, []. split; [reflexivity|]. split; [apply map_length|]. split; [intros x; auto|].
        split; [constructor; [apply ext_refl|rewrite app_nil_r; reflexivity]|].
        split; [constructor|]. split; [intros j r H; inversion H|].
        split.
        { assert (active (map (pair Waiting) ps) = 0); [|lia]. rewrite active_sum. clear. induction ps; simpl; auto. }
        exists (fun j => child t pa j). split; [intros j x; auto|]. split; [auto|].
        split; [intros j Hj x Hx; apply Hk0; eapply Hchild; eassumption|].
        split; [intros i j x _ _ H1 H2; eapply item_disjoint; apply child_item; eassumption|]. split; [auto|].
        intros j s p Hj. rewrite list_lookup_fmap in Hj. destruct (ps !! j) as [q|] eqn:Eq; [|discriminate].
        injection Hj as <- <-. split; [intros H; inversion H|]. split; [reflexivity|apply ext_refl]. }
    intros O1 h1 p [(chs & log & -> & HP)|Hsafe] Hg Hk1.
    2:{ destruct (safe_unfold _ _ _ _ _ Hg Hk1 Hsafe) as (H1 & H2 & H3). split; [|split; [|exact H3]].
        - intros ev p2 Hp Ha. destruct (H1 _ _ Hp Ha) as (A & B & C). auto.
        - intros ev Ha HGe HEe Ht. right. auto. }
    pose proof HP as (P1 & Pw & P2 & P3 & P4 & P5 & Oc & C1 & C2 & Ck & C3 & C4 & C5).
    assert (Hlt : forall j x, chs !! j = Some x -> j < n) by (intros j x Hj; rewrite <- P1; eapply lookup_lt_Some; exact Hj).
    assert (Hcl : forall i j, i < n -> ~ Oc i (t, pa ++ [j], true)).
    { intros i j Hi Hx. pose proof (C4 i _ Hi Hx (Hlab j)) as [H1 H2].
      assert (i = j) as -> by (eapply item_disjoint; [exact H1|split; reflexivity]). congruence. }
    (* events of somebody else than child [j] *)
    assert (Hkeep : forall ev j s p, chs !! j = Some (s, p) -> allowed g h1 ev -> G h1 ev ->
      ~ touches (Oc j) ev -> tok ev <> Some (t, pa ++ [j], true) ->
      match s with
      | Waiting => j ∉ log.*1 /\ ps !! j = Some p /\ ext any (owns_item t (pa ++ [j])) h (ev :: h1)
      | Running => j ∉ log.*1 /\ safe (slot_kept t pa j) (Qn j) (Oc j) (ev :: h1) p /\ OSlot t pa j ∈ ev :: h1 /\ (OFree t pa j ∈ ev :: h1 -> OFree t pa j ∈ h)
      | Reported => j ∈ log.*1 /\ (OFree t pa j ∈ ev :: h1 -> OFree t pa j ∈ h)
      | Released => j ∈ log.*1 /\ OFree t pa j ∈ ev :: h1
      | Skipped => lim <> 0 /\ cancelledb (ev :: h1) c = true /\ OGiveUp t pa j c ∈ ev :: h1
      end).
    { intros ev j s p Hj Ha HGe Ht Htl. pose proof (C5 j s p Hj) as H5.
      assert (Hfr : (OFree t pa j ∈ h1 -> OFree t pa j ∈ h) -> OFree t pa j ∈ ev :: h1 -> OFree t pa j ∈ h).
      { intros Hf Hin. apply elem_of_cons in Hin as [<-|Hin]; [exfalso; apply Htl; reflexivity|auto]. }
      destruct s.
      - destruct H5 as (A & B & C). split; [exact A|]. split; [exact B|]. apply ext_cons; [exact C| |exact I].
        unfold touches in *. destruct (tok ev) as [x|]; [|exact Ht]. intros Hx. apply Ht. apply C1. split; [exact Hx|congruence].
      - destruct H5 as (A & B & C & D). split; [exact A|]. split; [|split; [right; exact C|apply Hfr; exact D]].
        apply (safe_unfold _ _ _ _ _ Hg (Ck j (Hlt _ _ Hj)) B); auto.
      - destruct H5 as (A & B). split; [exact A|apply Hfr; exact B].
      - destruct H5 as (A & B). split; [exact A|right; exact B].
      - destruct H5 as (A & B & C). split; [exact A|]. split; [|right; exact C].
        eapply cancelledb_suffix; [apply suffix_cons_self|exact B]. }
    assert (Hinx : forall ev, good (ev :: h1) -> forall j r, (j, r) ∈ log -> j < n /\ OReturn t pa j r ∈ ev :: h1 /\ Qs j r (ev :: h1)).
    { intros ev Hge j r Hin. destruct (P4 j r Hin) as (A & B & C). split; [exact A|]. split; [right; exact B|].
      eapply HQs; [apply suffix_cons_self|exact Hge|exact C]. }
    split; [|split; [|discriminate]].
    2:{ intros ev Ha HGe HEe Ht. left. exists chs, log. split; [reflexivity|].
        assert (Hn : forall O', within O' O1 -> ~ touches O' ev).
        { intros O' Hw H. apply Ht. unfold touches in *. destruct (tok ev); auto. }
        assert (Hl : forall j, tok ev <> Some (t, pa ++ [j], true)).
        { intros j Htk. apply Ht. unfold touches. rewrite Htk. apply Pw. apply Hlab. }
        destruct P2 as [B1 B2].
        split; [exact P1|]. split; [exact Pw|]. split.
        { constructor; [apply ext_cons; [exact B1| |exact I]|rewrite returns_other; [exact B2|]].
          - apply Hn. intros x [Hx _]. auto.
          - intros j r ->. apply (Hl j). reflexivity. }
        split; [exact P3|]. split; [apply Hinx; constructor; assumption|].
        split.
        { rewrite slots_other, frees_other; [exact P5|intros j ->; apply (Hl j); reflexivity|intros j ->; apply (Hl j); reflexivity]. }
        exists Oc. split; [exact C1|]. split; [exact C2|].
        split; [intros j Hj; eapply known_suffix; [apply suffix_cons_self|auto]|]. split; [exact C3|]. split; [exact C4|].
        intros j s p Hj. apply Hkeep; auto. apply Hn. apply C2. eapply Hlt. exact Hj. }
    (* bookkeeping steps: one of the events of child [j0], which moves to [s0] *)
    assert (Hbook : forall ev j0 s0 p0 sp log' ,
      chs !! j0 = Some sp -> tok ev = Some (t, pa ++ [j0], true) ->
      allowed g h1 ev -> G h1 ev ->
      returns t pa (ev :: h1) = returns t pa h ++ log' -> NoDup log'.*1 ->
      (forall j r, (j, r) ∈ log' -> j < n /\ OReturn t pa j r ∈ ev :: h1 /\ Qs j r (ev :: h1)) ->
      (forall i, i <> j0 -> i ∈ log'.*1 <-> i ∈ log.*1) ->
      slots t pa (ev :: h1) + frees t pa h = slots t pa h + frees t pa (ev :: h1) + active (<[j0 := (s0, p0)]> chs) ->
      match s0 with
      | Waiting => False
      | Running => j0 ∉ log'.*1 /\ safe (slot_kept t pa j0) (Qn j0) (child t pa j0) (ev :: h1) p0 /\ OSlot t pa j0 ∈ ev :: h1 /\ (OFree t pa j0 ∈ ev :: h1 -> OFree t pa j0 ∈ h)
      | Reported => j0 ∈ log'.*1 /\ (OFree t pa j0 ∈ ev :: h1 -> OFree t pa j0 ∈ h)
      | Released => j0 ∈ log'.*1 /\ OFree t pa j0 ∈ ev :: h1
      | Skipped => lim <> 0 /\ cancelledb (ev :: h1) c = true /\ OGiveUp t pa j0 c ∈ ev :: h1
      end ->
      P (plus O1 ev) (ev :: h1) log' (<[j0 := (s0, p0)]> chs)).
    { intros ev j0 s0 p0 sp log' Hj0 Htok Ha HGe Hb Hnd Hin Hlog Hcnt Hst.
      pose proof (Hlt _ _ Hj0) as Hj0n.
      split; [rewrite insert_length; exact P1|]. split; [intros x Hx; left; auto|]. split.
      { constructor; [|exact Hb]. apply ext_cons; [apply P2| |exact I]. unfold touches. rewrite Htok. intros [_ Hx].
        apply (Hx j0 Hj0n). split; reflexivity. }
      split; [exact Hnd|]. split; [exact Hin|]. split; [exact Hcnt|].
      exists Oc. split; [exact C1|]. split; [intros j Hj x Hx; left; eapply C2; eassumption|].
      split; [intros j Hj; eapply known_suffix; [apply suffix_cons_self|auto]|].
      split; [exact C3|]. split; [exact C4|]. intros j s p Hj. destruct (decide (j = j0)) as [->|Hne].
      - rewrite list_lookup_insert in Hj by (eapply lookup_lt_Some; exact Hj0). injection Hj as <- <-.
        destruct s0; try exact Hst; [destruct Hst|]. destruct Hst as (A & B & C). split; [exact A|]. split; [|exact C].
        eapply safe_mono; [apply C1|exact B].
      - rewrite list_lookup_insert_ne in Hj by auto. pose proof (Hlt _ _ Hj) as Hjn.
        assert (Hk5 := Hkeep ev j s p Hj Ha HGe).
        assert (Ht : ~ touches (Oc j) ev) by (unfold touches; rewrite Htok; apply Hcl; exact Hjn).
        assert (Htl : tok ev <> Some (t, pa ++ [j], true)).
        { rewrite Htok. intros H. injection H as H. apply app_inj_tail in H as [_ H]. congruence. }
        specialize (Hk5 Ht Htl). destruct s; rewrite ?Hlog by exact Hne; exact Hk5. }
    intros ev p2 Hp Ha. inversion Hp; subst; clear Hp.
    - (* child *)
      match goal with [H1 : chs !! _ = Some _, H2 : pstep _ _ _ |- _] => rename H1 into Hj, H2 into Hc end.
      pose proof (Hlt _ _ Hj) as Hjn. destruct (C5 _ _ _ Hj) as (Hnl & Hsf & Hsl & Hnf).
      destruct (safe_unfold _ _ _ _ _ Hg (Ck j Hjn) Hsf) as (H1 & _ & _). destruct (H1 _ _ Hc Ha) as (HGe & Hpm & Hsf').
      assert (Hge : good (ev :: h1)) by (constructor; assumption).
      assert (Htl : forall i, tok ev <> Some (t, pa ++ [i], true)).
      { intros i Htk. unfold permitted in Hpm. rewrite Htk in Hpm. eapply Hcl; eassumption. }
      assert (Hgn : forall x, gain ev x -> forall i, i < n -> ~ Oc i x).
      { intros x Hx i Hi Hox. destruct ev; try contradiction. destruct s; try contradiction. simpl in Hx, Ha.
        apply (Ck i Hi x Hox). rewrite Hx. symmetry. exact Ha. }
      split; [exact HGe|]. split.
      { unfold permitted in *. destruct (tok ev); [|exact I]. eapply C2; eassumption. }
      left. eexists _, _. split; [reflexivity|].
      split; [rewrite insert_length; exact P1|]. split; [intros x Hx; left; auto|]. split.
      { constructor; [|rewrite returns_other; [apply P2|intros i r ->; apply (Htl i); reflexivity]]. apply ext_cons; [apply P2| |exact I].
        unfold touches, permitted in *. destruct (tok ev) as [x|]; [|intros []]. intros [Hx1 Hx2]. apply (Hx2 j Hjn).
        apply child_item. apply C4; assumption. }
      split; [exact P3|]. split; [apply Hinx; exact Hge|]. split.
      { rewrite slots_other, frees_other; [|intros i ->; apply (Htl i); reflexivity|intros i ->; apply (Htl i); reflexivity].
        pose proof (active_insert _ _ _ _ Running p' Hj) as HA. unfold weight in HA. simpl in HA. lia. }
      exists (fun i => if decide (i = j) then plus (Oc j) ev else Oc i).
      split; [intros i x Hx; destruct (decide (i = j)) as [->|]; [left|]; apply C1; exact Hx|].
      split; [intros i Hi x Hx; destruct (decide (i = j)) as [->|];
               [destruct Hx as [Hx|Hx]; [left; eapply C2; eassumption|right; exact Hx]|left; eapply C2; eassumption]|].
      split; [intros i Hi; destruct (decide (i = j)) as [->|];
               [apply known_plus; auto|eapply known_suffix; [apply suffix_cons_self|auto]]|].
      split.
      { intros i1 i2 x Hi1 Hi2 Hx1 Hx2. destruct (decide (i1 = j)) as [->|N1], (decide (i2 = j)) as [->|N2]; auto.
        - destruct Hx1 as [Hx1|Hx1]; [eapply C3; eassumption|]. exfalso. eapply (Hgn x Hx1 i2); eassumption.
        - destruct Hx2 as [Hx2|Hx2]; [eapply C3; eassumption|]. exfalso. eapply (Hgn x Hx2 i1); eassumption.
        - eapply C3; eassumption. }
      split.
      { intros i x Hi Hx HOx. destruct (decide (i = j)) as [->|]; [|apply C4; assumption].
        destruct Hx as [Hx|Hx]; [apply C4; assumption|]. exfalso.
        destruct ev; try contradiction. destruct s; try contradiction. simpl in Hx, Ha.
        apply (Hk1 x (Pw x HOx)). rewrite Hx. symmetry. exact Ha. }
      intros i s p1 Hi. destruct (decide (i = j)) as [->|Hne].
      + rewrite list_lookup_insert in Hi by (eapply lookup_lt_Some; exact Hj). injection Hi as <- <-.
        split; [exact Hnl|]. split; [exact Hsf'|]. split; [right; exact Hsl|].
        intros Hin. apply elem_of_cons in Hin as [<-|Hin]; [exfalso; apply (Htl j); reflexivity|auto].
      + rewrite list_lookup_insert_ne in Hi by auto. apply Hkeep; auto.
        unfold touches, permitted in *. destruct (tok ev) as [x|]; [|intros []]. intros Hx. apply Hne.
        eapply (C3 i j x); try assumption. eapply Hlt; exact Hi.
    - (* slot *)
      match goal with [H1 : chs !! _ = Some _ |- _] => rename H1 into Hj end.
      pose proof (Hlt _ _ Hj) as Hjn. destruct (C5 _ _ _ Hj) as (Hnl & Hps' & Hex).
      destruct (HG h1 log j P2 Hg Hjn) as (HG1 & _).
      assert (HGe : G h1 (OSlot t pa j)).
      { apply HG1; [exact Hex|]. match goal with [H : _ \/ _ < _ |- _] => destruct H as [->|Hl]; [left; reflexivity|right] end. lia. }
      assert (Hge : good (OSlot t pa j :: h1)) by (constructor; assumption).
      split; [exact HGe|]. split; [eapply permitted_label; [reflexivity|]; intros x Hx; apply Pw, HO, Hx|].
      left. eexists _, _. split; [reflexivity|]. eapply Hbook; try eassumption; try reflexivity.
      + apply P2.
      + apply Hinx. exact Hge.
      + simpl. rewrite decide_True by auto. pose proof (active_insert _ _ _ _ Running p Hj) as HA. unfold weight in HA. simpl in HA. lia.
      + split; [exact Hnl|]. split; [apply Hps; assumption|]. split; [left|].
        intros Hin. apply elem_of_cons in Hin as [H|Hin]; [discriminate|]. eapply ext_in; [exact Hex|exact Hin|].
        unfold touches. simpl. split; reflexivity.
    - (* giveup *)
      match goal with [H1 : chs !! _ = Some _ |- _] => rename H1 into Hj end.
      pose proof (Hlt _ _ Hj) as Hjn. destruct (C5 _ _ _ Hj) as (Hnl & Hps' & Hex). simpl in Ha.
      destruct (HG h1 log j P2 Hg Hjn) as (_ & HG2 & _).
      assert (HGe : G h1 (OGiveUp t pa j c)) by (apply HG2; assumption).
      assert (Hge : good (OGiveUp t pa j c :: h1)) by (constructor; assumption).
      split; [exact HGe|]. split; [eapply permitted_label; [reflexivity|]; intros x Hx; apply Pw, HO, Hx|].
      left. eexists _, _. split; [reflexivity|]. eapply Hbook; try eassumption; try reflexivity.
      + apply P2.
      + apply Hinx. exact Hge.
      + simpl. pose proof (active_insert _ _ _ _ Skipped p Hj) as HA. unfold weight in HA. simpl in HA. lia.
      + split; [assumption|]. split; [exact Ha|left].
    - (* return *)
      match goal with [H1 : chs !! _ = Some _ |- _] => rename H1 into Hj end.
      pose proof (Hlt _ _ Hj) as Hjn. destruct (C5 _ _ _ Hj) as (Hnl & Hsf & Hsl & Hnf).
      assert (Hq : Qn j r h1) by (apply (safe_unfold _ _ _ _ _ Hg (Ck j Hjn) Hsf); reflexivity).
      destruct (HG h1 log j P2 Hg Hjn) as (_ & _ & HG3 & _).
      assert (HGe : G h1 (OReturn t pa j r)) by (apply HG3; assumption).
      assert (Hge : good (OReturn t pa j r :: h1)) by (constructor; assumption).
      split; [exact HGe|]. split; [eapply permitted_label; [reflexivity|]; intros x Hx; apply Pw, HO, Hx|].
      left. eexists _, _. split; [reflexivity|]. eapply Hbook; try eassumption; try reflexivity.
      + simpl. rewrite decide_True by auto. rewrite (bl_log _ _ _ _ _ _ _ P2), app_assoc. reflexivity.
      + rewrite fmap_app. apply NoDup_app. split; [exact P3|]. split; [|apply NoDup_singleton].
        intros x Hx Hx2. apply elem_of_list_singleton in Hx2. simpl in Hx2. subst x. contradiction.
      + intros i ri Hin. apply elem_of_app in Hin as [Hin|Hin]; [apply Hinx; assumption|].
        apply elem_of_list_singleton in Hin. injection Hin as -> ->. split; [exact Hjn|]. split; [left|].
        eapply HQs; [apply suffix_cons_self|exact Hge|apply Hns; exact Hq].
      + intros i Hne. rewrite fmap_app, elem_of_app. simpl. rewrite elem_of_list_singleton. tauto.
      + simpl. pose proof (active_insert _ _ _ _ Reported (Ret r) Hj) as HA. unfold weight in HA. simpl in HA. lia.
      + split; [rewrite fmap_app; apply elem_of_app; right; left|].
        intros Hin. apply elem_of_cons in Hin as [H|Hin]; [discriminate|auto].
    - (* free *)
      match goal with [H1 : chs !! _ = Some _ |- _] => rename H1 into Hj end.
      pose proof (Hlt _ _ Hj) as Hjn. destruct (C5 _ _ _ Hj) as [Hl Hnf].
      destruct (HG h1 log j P2 Hg Hjn) as (_ & _ & _ & HG4).
      assert (HGe : G h1 (OFree t pa j)) by (apply HG4; assumption).
      assert (Hge : good (OFree t pa j :: h1)) by (constructor; assumption).
      split; [exact HGe|]. split; [eapply permitted_label; [reflexivity|]; intros x Hx; apply Pw, HO, Hx|].
      left. eexists _, _. split; [reflexivity|]. eapply Hbook; try eassumption; try reflexivity.
      + apply P2.
      + apply Hinx. exact Hge.
      + simpl. rewrite decide_True by auto. pose proof (active_insert _ _ _ _ Released p Hj) as HA. unfold weight in HA. simpl in HA. lia.
      + split; [exact Hl|left].
    - (* join *)
      match goal with [H1 : Forall finished chs |- _] => rename H1 into Hfin end. rewrite Forall_lookup in Hfin.
      assert (Hact : active chs = 0).
      { rewrite active_sum. clear -Hfin. induction chs as [|x chs IH]; [reflexivity|]. simpl.
        rewrite IH by (intros i y Hy; apply (Hfin (S i) y Hy)). destruct (Hfin 0 x eq_refl) as [E1|E1]; unfold weight; rewrite E1; reflexivity. }
      destruct (Hk h1 log Hg) as [HGe Hk'].
      { constructor; [exact P2|exact P3|exact P4| |lia|].
        - intros j Hj. rewrite <- P1 in Hj. apply lookup_lt_is_Some_2 in Hj as [[s p1] Hj].
          pose proof (C5 _ _ _ Hj) as H5. destruct (Hfin _ _ Hj) as [E1|E1]; simpl in E1; subst s; [left; apply H5|right; exact H5].
        - intros j Hj. rewrite <- P1 in Hj. apply lookup_lt_is_Some_2 in Hj as [[s p1] Hj].
          pose proof (C5 _ _ _ Hj) as H5. destruct (Hfin _ _ Hj) as [E1|E1]; simpl in E1; subst s; [left|right]; apply H5. }
      split; [exact HGe|]. split; [unfold permitted; simpl; apply Pw; apply HO; split; reflexivity|].
      right. eapply safe_mono; [|exact Hk']. intros x Hx. left. apply Pw. exact Hx.
  Qed.

  (** *** Calls: a program that starts with nothing leaves alone what its caller
      keeps. *)
  Definition protects (E : event -> Prop) (O F : own) : Prop := forall ev, E ev -> ~ touches O ev -> ~ touches F ev.

  Lemma protects_within E O F : within F O -> protects E O F.
  Proof. intros Hw ev _ Ht H. apply Ht. unfold touches in *. destruct (tok ev); auto. Qed.

  Lemma ext_protects E O F h h' : protects E O F -> ext E O h h' -> ext any F h h'.
  Proof.
    intros Hp (q & -> & Hq). exists q. split; [reflexivity|]. eapply Forall_impl; [exact Hq|]. intros ev [A B].
    split; [apply Hp; assumption|exact I].
  Qed.

  Lemma safe_call E Q O F h p : protects E O F -> known F h -> known O h -> safe E Q (fun _ => False) h p ->
    safe E (fun r h' => Q r h' /\ ext any F h h') O h p.
  Proof.
    intros Hp Hkf Hk0 Hs.
    apply (safe_coind E (fun r h' => Q r h' /\ ext any F h h')
      (fun O1 h1 p1 => exists Op, safe E Q Op h1 p1 /\ (forall x, Op x -> ~ F x) /\ within Op O1 /\ within O O1 /\ ext any F h h1)).
    2:{ exists (fun _ => False). split; [exact Hs|]. split; [intros x []|]. split; [intros x []|]. split; [intros x Hx; exact Hx|]. apply ext_refl. }
    intros O1 h1 p1 (Op & Hsp & Hd & Hw1 & Hw2 & He) Hg Hk.
    assert (Hkp : known Op h1) by (intros x Hx; apply Hk, Hw1, Hx).
    assert (Hkf1 : known F h1) by (eapply known_suffix; [eapply ext_suffix; exact He|exact Hkf]).
    destruct (safe_unfold _ _ _ _ _ Hg Hkp Hsp) as (H1 & H2 & H3). split; [|split].
    - intros ev p2 Hst Ha. destruct (H1 _ _ Hst Ha) as (A & B & C). split; [exact A|].
      split; [unfold permitted in *; destruct (tok ev); auto|].
      exists (plus Op ev). split; [exact C|]. split.
      { intros x [Hx|Hx] HFx; [exact (Hd x Hx HFx)|]. destruct ev; try contradiction. destruct s; try contradiction.
        simpl in Hx, Ha. apply (Hkf1 x HFx). rewrite Hx. symmetry. exact Ha. }
      split; [intros x [Hx|Hx]; [left; auto|right; exact Hx]|]. split; [intros x Hx; left; auto|].
      apply ext_cons; [exact He| |exact I]. unfold touches, permitted in *. destruct (tok ev) as [x|]; [apply Hd; exact B|intros []].
    - intros ev Ha HG HE Ht.
      assert (Hn : forall O', within O' O1 -> ~ touches O' ev) by (intros O' Hw H; apply Ht; unfold touches in *; destruct (tok ev); auto).
      exists Op. split; [apply H2; auto|]. split; [exact Hd|]. split; [exact Hw1|]. split; [exact Hw2|].
      apply ext_cons; [exact He| |exact I]. apply Hp; auto.
    - intros r ->. auto.
  Qed.

  (** The usual rule for an effect: nothing is gained but by a fresh claim. *)
  Lemma safe_do E Q O F h e kk : protects E O F ->
    (forall h' r, ext any F h h' -> good h' -> known O h' -> allowed g h' (obs e r) ->
       G h' (obs e r) /\ permitted O (obs e r) /\ safe E Q O (obs e r :: h') (kk r)) ->
    safe E Q O h (Vis e kk).
  Proof.
    intros Hp H. apply safe_vis. intros h' r He Hg Hk Ha.
    destruct (H h' r (ext_protects _ _ _ _ _ Hp He) Hg Hk Ha) as (A & B & C). split; [exact A|]. split; [exact B|].
    eapply safe_mono; [|exact C]. intros x Hx. left. exact Hx.
  Qed.

  (** What happened to the tokens in [F] since [h]. *)
  Definition since (F : own) (P : event -> Prop) (h h' : hist) : Prop :=
    exists q, h' = q ++ h /\ Forall (fun ev => touches F ev -> P ev) q.
  Lemma since_refl F P h : since F P h h.
  Proof. exists []. split; [reflexivity|constructor]. Qed.
  Lemma since_ext F P h h1 h2 : since F P h h1 -> ext any F h1 h2 -> since F P h h2.
  Proof.
    intros (q1 & -> & H1) (q2 & -> & H2). exists (q2 ++ q1). rewrite app_assoc. split; [reflexivity|]. apply Forall_app. split; [|exact H1].
    eapply Forall_impl; [exact H2|]. intros ev [A _] B. contradiction.
  Qed.
  Lemma since_cons F (P : event -> Prop) h h1 ev : since F P h h1 -> (touches F ev -> P ev) -> since F P h (ev :: h1).
  Proof. intros (q1 & -> & H1) H. exists (ev :: q1). split; [reflexivity|]. constructor; auto. Qed.
  Lemma since_suffix F P h h' : since F P h h' -> h `suffix_of` h'.
  Proof. intros (q & -> & _). exists q. reflexivity. Qed.
  Lemma since_in F P h h' ev : since F P h h' -> ev ∈ h' -> touches F ev -> ev ∈ h \/ P ev.
  Proof.
    intros (q & -> & H) Hin Ht. apply elem_of_app in Hin as [Hin|Hin]; [right|left; exact Hin].
    rewrite Forall_forall in H. auto.
  Qed.

  (** Runs against nothing but cancellation. *)
  Lemma adequacy Q p h' p' : (forall h i, G h (OCancel i)) -> safe any Q (fun _ => False) [] p ->
    rtc (cstep g) ([], p) (h', p') ->
    good h' /\ (exists O, safe any Q O h' p') /\ (forall r, p' = Ret r -> Q r h').
  Proof.
    intros Hc Hs Hr. remember ([], p) as x eqn:Ex. remember (h', p') as y eqn:Ey.
    assert (Hgen : forall O h p, x = (h, p) -> good h -> known O h -> safe any Q O h p ->
              good h' /\ (exists O, safe any Q O h' p') /\ (forall r, p' = Ret r -> Q r h')).
    { clear Ex Hs. revert h' p' Ey. induction Hr as [x|x y z Hxy Hyz IH]; intros h' p' Ey O h1 p1 Ex Hg Hk Hs.
      - rewrite Ey in Ex. injection Ex as -> ->. split; [exact Hg|]. split; [eauto|]. apply (safe_unfold _ _ _ _ _ Hg Hk Hs).
      - subst x. destruct (safe_unfold _ _ _ _ _ Hg Hk Hs) as (H1 & H2 & _).
        inversion Hxy as [h2 p2 ev p3 Hst Ha|h2 p2 i]; subst.
        + destruct (H1 _ _ Hst Ha) as (HGe & _ & Hs'). eapply (IH _ _ eq_refl); [reflexivity|constructor; assumption| |exact Hs'].
          apply known_plus. exact Hk.
        + eapply (IH _ _ eq_refl _ (OCancel i :: h1) p1); [reflexivity|constructor; [exact Hg|exact I|apply Hc]| |].
          * eapply known_suffix; [apply suffix_cons_self|exact Hk].
          * apply H2; [exact I|apply Hc|exact I|intros []]. }
    eapply Hgen; [exact Ex|constructor| |exact Hs]. intros x0 [].
  Qed.
End Safe.
