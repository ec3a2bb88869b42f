(** Every schedule is finite, and no state is stuck. *)
From Verif Require Import Base Interp_Model Cond_Model Types_Model Path_Model Run_Model Run_Logic Run_Drive.

Section prog_ind.
  Context (P : prog -> Prop)
    (Hr : forall r, P (Ret r)) (Hv : forall e k, (forall r, P (k r)) -> P (Vis e k))
    (Hf : forall t pa lim c chs log k, Forall (fun x => P x.2) chs -> (forall l, P (k l)) -> P (Fork t pa lim c chs log k)).
  Fixpoint prog_rec' (p : prog) : P p :=
    match p with
    | Ret r => Hr r
    | Vis e k => Hv e k (fun r => prog_rec' (k r))
    | Fork t pa lim c chs log k =>
        Hf t pa lim c chs log k
          ((fix go (l : list (cstat * prog)) : Forall (fun x => P x.2) l :=
              match l with
              | [] => Forall_nil_2 _
              | x :: r => Forall_cons_2 _ x r (prog_rec' x.2) (go r)
              end) chs)
          (fun l => prog_rec' (k l))
    end.
End prog_ind.

(** ** Finite *)
Definition below (p' p : prog) : Prop := exists ev, pstep p ev p'.

Inductive cbelow : cstat * prog -> cstat * prog -> Prop :=
| cb_step p p' : below p' p -> cbelow (Running, p') (Running, p)
| cb_slot p : cbelow (Running, p) (Waiting, p)
| cb_giveup p : cbelow (Skipped, p) (Waiting, p)
| cb_return p : cbelow (Reported, p) (Running, p)
| cb_free p : cbelow (Released, p) (Reported, p).

Lemma cacc st p : Acc below p -> Acc cbelow (st, p).
Proof.
  intros H.
  assert (H1 : forall q, Acc cbelow (Skipped, q)) by (intros q; constructor; intros y Hy; inversion Hy).
  assert (H2 : forall q, Acc cbelow (Released, q)) by (intros q; constructor; intros y Hy; inversion Hy).
  assert (H3 : forall q, Acc cbelow (Reported, q)) by (intros q; constructor; intros y Hy; inversion Hy; auto).
  assert (H4 : Acc cbelow (Running, p)).
  { induction H as [p _ IH]. constructor. intros y Hy. inversion Hy; subst; auto. }
  destruct st; auto. constructor. intros y Hy. inversion Hy; subst; auto.
Qed.

Definition lbelow (l' l : list (cstat * prog)) : Prop := exists j c c', l !! j = Some c /\ cbelow c' c /\ l' = <[j := c']> l.

Lemma lacc l : Forall (Acc cbelow) l -> Acc lbelow l.
Proof.
  induction l as [|c l IH]; intros H.
  - constructor. intros y (j & c & c' & Hj & _). destruct j; discriminate.
  - apply Forall_cons in H as [Hc Hl]. specialize (IH Hl). clear Hl. revert l IH. induction Hc as [c _ IHc]. intros l Hl. induction Hl as [l Hl IHl].
    constructor. intros y ([|j] & c1 & c' & Hj & Hb & ->); simpl in *.
    + injection Hj as <-. apply (IHc c' Hb). constructor. exact Hl.
    + apply IHl. exists j, c1, c'. auto.
Qed.

Theorem prog_acc p : Acc below p.
Proof.
  induction p as [r|e k IH|t pa lim c chs log k Hch IH] using prog_rec'.
  - constructor. intros y (ev & Hy). exfalso. eapply ret_nostep; exact Hy.
  - constructor. intros y (ev & Hy). destruct (pstep_vis _ _ _ Hy) as (r & _ & ->). apply IH.
  - assert (Hl : Acc lbelow chs).
    { apply lacc. eapply Forall_impl; [exact Hch|]. intros [st p] Hp. apply cacc. exact Hp. }
    clear Hch. revert log. induction Hl as [chs _ IHl]. intros log. constructor. intros y (ev & Hy).
    inversion Hy; subst; try (apply IHl; eexists _, _, _; split; [eassumption|]; split; [|reflexivity]; constructor).
    + eexists. eassumption.
    + apply IH.
Qed.

(** An infinite schedule consists of cancellations from some point on: there is no
    one in which goroutines make infinitely many steps. *)
Lemma no_infinite (f : nat -> prog) :
  (forall n, f (S n) = f n \/ below (f (S n)) (f n)) -> ~ (forall N, exists n, N <= n /\ below (f (S n)) (f n)).
Proof.
  intros Hf Hinf.
  assert (Hsame : forall n m, n <= m -> f m = f n \/ exists i, n <= i < m /\ f i = f n /\ below (f (S i)) (f i)).
  { intros n m H. induction H as [|m H IH]; [left; reflexivity|]. destruct IH as [IH|(i & Hi & E & B)]; [|right; exists i; split; [lia|auto]].
    destruct (Hf m) as [E|B]; [left; congruence|right]. exists m. split; [lia|auto]. }
  assert (Hall : forall q, Acc below q -> forall n, f n = q -> False).
  { intros q Hq. induction Hq as [q _ IH]. intros n <-. destruct (Hinf n) as (m & Hm & Hb). destruct (Hsame n m Hm) as [E|(i & Hi & E & B)].
    - apply (IH (f (S m))) with (S m); [rewrite <- E; exact Hb|reflexivity].
    - apply (IH (f (S i))) with (S i); [rewrite <- E; exact B|reflexivity]. }
  exact (Hall (f 0) (prog_acc _) 0 eq_refl).
Qed.

(** ** Not stuck *)
Definition live (st : cstat) : Prop := st = Running \/ st = Reported.
Lemma children_cases (chs : list (cstat * prog)) :
  (exists j st p, chs !! j = Some (st, p) /\ live st) \/
  ((forall j st p, chs !! j = Some (st, p) -> ~ live st) /\
   ((exists j p, chs !! j = Some (Waiting, p)) \/ Forall finished chs)).
Proof.
  induction chs as [|[st p] chs IH]; [right; split; [intros [|j]; discriminate|right; constructor]|].
  destruct IH as [(j & st' & p' & Hj & Hl)|[Hn IH]]; [left; exists (S j), st', p'; auto|].
  destruct (decide (live st)) as [Hst|Hst]; [left; exists 0, st, p; auto|right]. split.
  - intros [|j] st' p' Hj; simpl in Hj; [injection Hj as <- <-; exact Hst|]. eapply Hn. exact Hj.
  - destruct IH as [(j & q & Hj)|Hf]; [left; exists (S j), q; exact Hj|]. destruct st.
    + left. exists 0, p. reflexivity.
    + exfalso. apply Hst. left. reflexivity.
    + exfalso. apply Hst. right. reflexivity.
    + right. constructor; [left; reflexivity|exact Hf].
    + right. constructor; [right; reflexivity|exact Hf].
Qed.

Lemma not_live_active chs : (forall j st p, chs !! j = Some (st, p) -> ~ live st) -> active chs = 0.
Proof.
  unfold active. induction chs as [|[st p] chs IH]; intros H; [reflexivity|]. rewrite filter_cons_False; [|apply (H 0 st p eq_refl)].
  apply IH. intros j st' p' Hj. apply (H (S j) st' p'). exact Hj.
Qed.

Theorem progress g p : forall h, (exists r, p = Ret r) \/ exists ev p', pstep p ev p' /\ allowed g h ev.
Proof.
  induction p as [r|e k IH|t pa lim c chs log k Hch IH] using prog_rec'; intros h.
  - left. eauto.
  - right. exists (obs e (respond g h fine e)), (k (respond g h fine e)). split; [constructor|apply respond_allowed].
  - right. destruct (children_cases chs) as [(j & st & p & Hj & [-> | ->])|[Hn [(j & p & Hj)|Hf]]].
    + rewrite Forall_lookup in Hch. destruct (Hch _ _ Hj h) as [(r & E)|(ev & p' & Hs & Ha)].
      * simpl in E. subst p. eexists _, _. split; [eapply ps_return; exact Hj|exact I].
      * eexists _, _. split; [eapply ps_child; [exact Hj|exact Hs]|exact Ha].
    + eexists _, _. split; [eapply ps_free; exact Hj|exact I].
    + eexists _, _. split; [eapply ps_slot; [exact Hj|]|exact I]. rewrite (not_live_active _ Hn). lia.
    + eexists _, _. split; [apply ps_join; exact Hf|exact I].
Qed.
