(** When the items of a parallel block lead to different tasks, apart from the direct
    dependencies of the tasks they name, a task found running is an ancestor of the one
    being claimed. *)
From Verif Require Import Base Interp_Model Cond_Model Types_Model Path_Model Valid_Spec Run_Model Run_Logic Run_Seq.

(** Task [n] leads to task [m] from its run list, not counting its own dependencies. *)
Definition leads (tasks : taskmap) (n m : str) : Prop :=
  m = n \/ exists t x, tasks !! n = Some t /\ refers (t_run t) x /\ rtc (edge tasks) x m.

(** No two items of a block lead to one task. *)
Definition apart (tasks : taskmap) : Prop :=
  forall T t i o items j1 j2 r1 r2 m, tasks !! T = Some t -> t_run t !! i = Some (RPar o items) ->
    items !! j1 = Some (RTask r1) -> items !! j2 = Some (RTask r2) -> j1 <> j2 ->
    leads tasks (r_task r1) m -> leads tasks (r_task r2) m -> False.

Notation tset := (str -> Prop).
Definition none : tset := fun _ => False.

(** Programs that do not return without an error, and neither claim nor complete a task. *)
Inductive failing : prog -> Prop :=
| failing_ret e : failing (Ret (Some e))
| failing_vis e k : (forall r, calm_ev (obs e r)) -> (forall r, failing (k r)) -> failing (Vis e k).

Lemma failing_bind p f : failing p -> (forall e, failing (f (Some e))) -> failing (bind p f).
Proof. intros Hp Hf. induction Hp; simpl; [apply Hf|constructor; auto]. Qed.

Definition vis_inv (p : prog) : Prop :=
  match p with
  | Ret r => r <> None
  | Vis e k => (forall r, calm_ev (obs e r)) /\ (forall r, failing (k r))
  | Fork _ _ _ _ _ _ _ => False
  end.
Lemma failing_inv p : failing p -> vis_inv p.
Proof. destruct 1; simpl; [discriminate|auto]. Qed.

Section Apart.
  Context (tasks : taskmap) (g : gmap str str).
  Notation P := (fun n : str => tc (edge tasks) n n).

  (** [ok R s0 E D st p]: with the tasks [st] running here and above and the tasks [D] done,
      [p] claims only tasks of [R] below all of [st] (or tasks of [D]), and if it returns
      without an error then exactly [s0] is left running and [E] is done. *)
  Inductive ok (R : tset) (s0 : list str) (E : tset) : tset -> list str -> prog -> Prop :=
  | ok_ret (D : tset) : (forall m, E m -> D m) -> ok R s0 E D s0 (Ret None)
  | ok_fail D st p : failing p -> ok R s0 E D st p
  | ok_vis D st e k : (forall r, calm_ev (obs e r)) -> (forall r, ok R s0 E D st (k r)) -> ok R s0 E D st (Vis e k)
  | ok_get (D : tset) st n (k : status -> prog) : ok R s0 E D st (k Fresh) -> ok R s0 E D st (k Active) ->
      ok R s0 E (fun m => D m \/ m = n) st (k Done) -> ok R s0 E D st (Vis (EGet n) k)
  | ok_claim_done (D : tset) st n sc (k : status -> prog) : D n -> ok R s0 E D st (k Done) -> ok R s0 E D st (Vis (EClaim n sc) k)
  | ok_claim (D : tset) st n sc (k : status -> prog) : R n -> (forall m, m ∈ st -> tc (edge tasks) m n) ->
      (n ∉ st -> ok R s0 E D (n :: st) (k Fresh)) -> failing (k Active) ->
      ok R s0 E (fun m => D m \/ m = n) st (k Done) -> ok R s0 E D st (Vis (EClaim n sc) k)
  | ok_complete (D : tset) st n (k : unit -> prog) : n ∉ st -> n ∉ s0 -> ok R s0 E (fun m => D m \/ m = n) st (k tt) ->
      ok R s0 E D (n :: st) (Vis (EDone n) k)
  | ok_fork D st t pa lim c chs k (Rs : nat -> tset) :
      (forall j x, chs !! j = Some x -> x.1 = Waiting /\ ok (Rs j) st none D st x.2) ->
      (forall j m, Rs j m -> R m) -> (forall j1 j2 m, Rs j1 m -> Rs j2 m -> j1 = j2) ->
      (forall log, first_err log = None -> ok R s0 E D st (k log)) -> (forall log, first_err log <> None -> failing (k log)) ->
      ok R s0 E D st (Fork t pa lim c chs [] k).

  Lemma ok_bind R s1 E1 s0 E D st p f : ok R s1 E1 D st p -> (forall m, m ∈ s0 -> m ∈ s1) ->
    (forall D' : tset, (forall m, D m -> D' m) -> (forall m, E1 m -> D' m) -> ok R s0 E D' s1 (f None)) -> (forall e, failing (f (Some e))) ->
    ok R s0 E D st (bind p f).
  Proof.
    intros Hp Hs HN HE. induction Hp; simpl.
    - apply HN; auto.
    - apply ok_fail. apply failing_bind; assumption.
    - apply ok_vis; auto.
    - apply ok_get; [auto|auto|]. apply IHHp3; [exact Hs|]. intros D' H. apply HN. auto.
    - apply ok_claim_done; auto.
    - apply ok_claim; [assumption|assumption|auto|apply failing_bind; assumption|]. apply IHHp; [exact Hs|]. intros D' H'. apply HN. auto.
    - apply ok_complete; [assumption|auto|]. apply IHHp; [exact Hs|]. intros D' H'. apply HN. auto.
    - eapply ok_fork; [eassumption|eassumption|eassumption| |].
      + intros log Hl. eauto.
      + intros log Hl. apply failing_bind; auto.
  Qed.
  Lemma ok_weaken R s0 (E E' : tset) D st p : ok R s0 E D st p -> (forall m, E' m -> E m) -> ok R s0 E' D st p.
  Proof.
    intros Hp HE. induction Hp; [apply ok_ret|apply ok_fail|apply ok_vis|apply ok_get|apply ok_claim_done|apply ok_claim|apply ok_complete|eapply ok_fork]; eauto.
  Qed.
  Lemma ok_then R s1 E1 s0 E D st p w q : ok R s1 E1 D st p -> (forall m, m ∈ s0 -> m ∈ s1) ->
    (forall D' : tset, (forall m, D m -> D' m) -> (forall m, E1 m -> D' m) -> ok R s0 E D' s1 q) -> ok R s0 E D st (and_then p w q).
  Proof. intros Hp Hs HN. eapply ok_bind; [exact Hp|exact Hs|exact HN|]. intros e. constructor. Qed.

  (** ** Executions *)
  Definition dones (D : tset) (h : hist) : Prop := forall m, D m -> status_of h m = Done.

  Definition touch (ev : event) (m : str) : Prop :=
    match ev with OClaim n _ Fresh | ODone n => m = n | _ => False end.
  Lemma touch_dec ev m : touch ev m \/ ~ touch ev m.
  Proof. destruct ev; simpl; auto; [destruct s; auto|]; destruct (decide (m = n)); auto. Qed.
  Lemma untouched ev h m : ~ touch ev m -> status_of (ev :: h) m = status_of h m.
  Proof.
    destruct ev; simpl; auto; [destruct s; auto|]; intros H; destruct (decide (n = m)) as [->|]; try reflexivity; exfalso; apply H; reflexivity.
  Qed.
  Lemma calm_untouched ev m : calm_ev ev -> ~ touch ev m.
  Proof. destruct ev; simpl; intros H; auto; contradiction. Qed.
  Lemma done_stays h ev m : allowed g h ev -> status_of h m = Done -> status_of (ev :: h) m = Done.
  Proof.
    intros Ha Hm. destruct ev; simpl in *; auto.
    - destruct s; auto. destruct (decide (n = m)) as [->|]; [congruence|exact Hm].
    - destruct (decide (n = m)); auto.
  Qed.

  Inductive inv (h : hist) (R : tset) (s0 : list str) (E : tset) : prog -> tset -> Prop :=
  | inv_seq D st p (A : tset) : ok R s0 E D st p -> dones D h -> (forall m, m ∈ st -> m ∈ s0 \/ R m) -> (forall m, m ∈ s0 -> m ∈ st) ->
      (forall m, A m <-> m ∈ st /\ m ∉ s0) -> inv h R s0 E p A
  | inv_fail p (A : tset) : failing p -> (forall m, A m -> R m) -> inv h R s0 E p A
  | inv_fork D st t pa lim c chs log k (A : tset) (Rs As : nat -> tset) :
      dones D h -> (forall m, m ∈ st -> m ∈ s0 \/ R m) -> (forall m, m ∈ s0 -> m ∈ st) ->
      (forall j x, chs !! j = Some x -> inv h (Rs j) st none x.2 (As j)) ->
      (forall j x, chs !! j = Some x -> match x.1 with Waiting | Skipped => forall m, ~ As j m | Running => True | _ => exists r, x.2 = Ret r /\ (j, r) ∈ log end) ->
      (forall j m, Rs j m -> R m) -> (forall j1 j2 m, Rs j1 m -> Rs j2 m -> j1 = j2) ->
      (forall l, first_err l = None -> ok R s0 E D st (k l)) -> (forall l, first_err l <> None -> failing (k l)) ->
      (forall m, A m <-> (m ∈ st /\ m ∉ s0) \/ exists j x, chs !! j = Some x /\ As j m) ->
      inv h R s0 E (Fork t pa lim c chs log k) A.

  Lemma inv_sub h R s0 E p A : inv h R s0 E p A -> forall m, A m -> R m.
  Proof.
    induction 1 as [R s0 E D st p A Hok HD Hst Hs0 HA|R s0 E p A Hf HA|R s0 E D st t pa lim c chs log k A Rs As HD Hst Hs0 Hch IH Hcs HR Hdj Hk Hke HA]; intros m Hm.
    - apply HA in Hm as [Hm Hn]. destruct (Hst m Hm); [contradiction|assumption].
    - apply HA. exact Hm.
    - apply HA in Hm as [[Hm Hn]|(j & x & Hj & Hm)]; [destruct (Hst m Hm); [contradiction|assumption]|]. apply (HR j). eapply IH; eassumption.
  Qed.
  Lemma inv_mono h h' R s0 E p A : (forall m, status_of h m = Done -> status_of h' m = Done) -> inv h R s0 E p A -> inv h' R s0 E p A.
  Proof.
    intros Hm. induction 1; [eapply inv_seq|eapply inv_fail|eapply inv_fork]; try eassumption; intros m' H'; auto.
  Qed.

  Definition exact (h : hist) (R : tset) (s0 : list str) (A : tset) : Prop := forall m, R m -> (status_of h m = Active <-> m ∈ s0 \/ A m).
  Definition stepped (h : hist) (R : tset) (s0 : list str) (E : tset) (p : prog) (A : tset) : Prop :=
    forall ev p2, pstep p ev p2 -> allowed g h ev -> exact h R s0 A ->
      fine_step P h ev /\ exists A' : tset, inv (ev :: h) R s0 E p2 A' /\ (forall n, touch ev n -> R n) /\
        exact (ev :: h) R s0 A' /\ (forall m, ~ touch ev m -> (A' m <-> A m)).

  Lemma calm_fine h ev : calm_ev ev -> fine_step P h ev.
  Proof. destruct ev; simpl; auto; contradiction. Qed.
  Lemma stepped_calm h R s0 E A ev p2 : calm_ev ev -> allowed g h ev -> exact h R s0 A -> inv (ev :: h) R s0 E p2 A ->
    fine_step P h ev /\ exists A' : tset, inv (ev :: h) R s0 E p2 A' /\ (forall n, touch ev n -> R n) /\
        exact (ev :: h) R s0 A' /\ (forall m, ~ touch ev m -> (A' m <-> A m)).
  Proof.
    intros Hc Ha Hx Hi. split; [apply calm_fine; exact Hc|]. exists A. split; [exact Hi|]. split; [|split].
    - intros n Hn. exfalso. eapply calm_untouched; eassumption.
    - intros m Hm. rewrite untouched by (apply calm_untouched; exact Hc). apply Hx. exact Hm.
    - intros m _. reflexivity.
  Qed.

  Lemma first_err_none log : first_err log = None -> forall j r, (j, r) ∈ log -> r = None.
  Proof.
    induction log as [|[j' [e|]] log IH]; simpl; intros H j r Hin; [inversion Hin|discriminate H|].
    apply elem_of_cons in Hin as [Hin|Hin]; [congruence|eauto].
  Qed.

  Definition ret_inv (s0 : list str) (st : list str) (p : prog) : Prop := match p with Ret None => st = s0 | _ => True end.
  Lemma ok_ret_inv R s0 E D st p : ok R s0 E D st p -> ret_inv s0 st p.
  Proof. destruct 1; simpl; auto. apply failing_inv in H. destruct p as [[|]| |]; simpl; auto. simpl in H. congruence. Qed.
  Lemma inv_ret h R s0 E A : inv h R s0 E (Ret None) A -> forall m, ~ A m.
  Proof.
    intros H. remember (Ret None) as p eqn:Ep. destruct H; subst.
    - apply ok_ret_inv in H. simpl in H. subst. intros m Hm. apply H3 in Hm as [? ?]. contradiction.
    - apply failing_inv in H. simpl in H. congruence.
    - discriminate Ep.
  Qed.

  Lemma fork_stepped h R s0 E D st t pa lim c chs log k (A : tset) (Rs As : nat -> tset) :
      dones D h -> (forall m, m ∈ st -> m ∈ s0 \/ R m) -> (forall m, m ∈ s0 -> m ∈ st) ->
      (forall j x, chs !! j = Some x -> inv h (Rs j) st none x.2 (As j)) ->
      (forall j x, chs !! j = Some x -> x.1 = Running -> stepped h (Rs j) st none x.2 (As j)) ->
      (forall j x, chs !! j = Some x -> match x.1 with Waiting | Skipped => forall m, ~ As j m | Running => True | _ => exists r, x.2 = Ret r /\ (j, r) ∈ log end) ->
      (forall j m, Rs j m -> R m) -> (forall j1 j2 m, Rs j1 m -> Rs j2 m -> j1 = j2) ->
      (forall l, first_err l = None -> ok R s0 E D st (k l)) -> (forall l, first_err l <> None -> failing (k l)) ->
      (forall m, A m <-> (m ∈ st /\ m ∉ s0) \/ exists j x, chs !! j = Some x /\ As j m) ->
      stepped h R s0 E (Fork t pa lim c chs log k) A.
  Proof.
    intros HD Hst Hs0 Hch Hstep Hcs HR Hdj Hk Hke HA ev p2 Hp Ha Hx.
    assert (HD' : dones D (ev :: h)) by (intros m Hm; apply done_stays; [exact Ha|auto]).
    assert (Hch' : forall j x, chs !! j = Some x -> inv (ev :: h) (Rs j) st none x.2 (As j)).
    { intros j x Hj. eapply inv_mono; [|eauto]. intros m. apply done_stays. exact Ha. }
    (* replacing child [j] by another with the same program *)
    assert (Hsame : forall j cs cs' q log', chs !! j = Some (cs, q) -> (forall x, x ∈ log -> x ∈ log') ->
              (match cs' with Waiting | Skipped => forall m, ~ As j m | Running => True | _ => exists r, q = Ret r /\ (j, r) ∈ log' end) ->
              inv (ev :: h) R s0 E (Fork t pa lim c (<[j := (cs', q)]> chs) log' k) A).
    { intros j cs cs' q log' Hj Hl Hs. eapply (inv_fork _ _ _ _ D st) with (Rs := Rs) (As := As); try eassumption.
      - intros j' x Hx'. apply list_lookup_insert_Some in Hx' as [(-> & <- & _)|(Hne & Hx')]; [exact (Hch' _ _ Hj)|exact (Hch' _ _ Hx')].
      - intros j' x Hx'. apply list_lookup_insert_Some in Hx' as [(-> & <- & _)|(Hne & Hx')]; [exact Hs|]. specialize (Hcs _ _ Hx').
        destruct x as [[] q']; simpl in *; auto; destruct Hcs as (r & -> & Hr); eauto.
      - intros m. rewrite HA. apply or_iff_compat_l. split; intros (j' & x & Hj' & Hm).
        + destruct (decide (j' = j)) as [->|Hne].
          * exists j. eexists. split; [apply list_lookup_insert; eapply lookup_lt_Some; exact Hj|exact Hm].
          * exists j', x. rewrite list_lookup_insert_ne by congruence. auto.
        + apply list_lookup_insert_Some in Hj' as [(-> & _ & _)|(Hne & Hj')]; eauto. }
    inversion Hp as [|t' pa' lim' c' chs' log' k' j q ev' q' Hj Hq|t' pa' lim' c' chs' log' k' j q Hj Hl|t' pa' lim' c' chs' log' k' j q Hj Hl
                     |t' pa' lim' c' chs' log' k' j r Hj|t' pa' lim' c' chs' log' k' j q Hj|t' pa' lim' c' chs' log' k' Hf]; subst.
    - (* a child's step *)
      assert (Hxj : exact h (Rs j) st (As j)).
      { intros m Hm. rewrite (Hx m (HR _ _ Hm)), HA. split.
        - intros [H|[[H _]|(j' & x & Hj' & H)]]; [left; apply Hs0; exact H|left; exact H|right].
          assert (Rs j' m) as Hr by (eapply inv_sub; [apply (Hch _ _ Hj')|exact H]). rewrite (Hdj _ _ _ Hm Hr). exact H.
        - intros [H|H]; [|right; right; eauto]. destruct (decide (m ∈ s0)); auto. }
      destruct (Hstep _ _ Hj eq_refl ev q' Hq Ha Hxj) as (Hfine & A' & Hi & Ht & Hx' & Hsm). split; [exact Hfine|].
      set (As' := fun i => if decide (i = j) then A' else As i).
      assert (HAs : forall i, i <> j -> As' i = As i) by (intros i Hi'; unfold As'; destruct (decide (i = j)); [contradiction|reflexivity]).
      assert (HAj : As' j = A') by (unfold As'; destruct (decide (j = j)); [reflexivity|congruence]).
      set (B := fun m => (m ∈ st /\ m ∉ s0) \/ exists i x, <[j := (Running, q')]> chs !! i = Some x /\ As' i m).
      assert (HB : forall m, B m <-> (m ∈ st /\ m ∉ s0) \/ A' m \/ exists i x, i <> j /\ chs !! i = Some x /\ As i m).
      { intros m. unfold B. apply or_iff_compat_l. split.
        - intros (i & x & Hi' & Hm). apply list_lookup_insert_Some in Hi' as [(-> & _ & _)|(Hne & Hi')]; [left; rewrite <- HAj; exact Hm|].
          right. exists i, x. rewrite HAs in Hm by congruence. split; [congruence|auto].
        - intros [Hm|(i & x & Hne & Hi' & Hm)].
          + exists j. eexists. split; [apply list_lookup_insert; eapply lookup_lt_Some; exact Hj|]. rewrite HAj. exact Hm.
          + exists i, x. split; [rewrite list_lookup_insert_ne by congruence; exact Hi'|]. rewrite HAs by exact Hne. exact Hm. }
      assert (HA0 : forall m, A m <-> (m ∈ st /\ m ∉ s0) \/ As j m \/ exists i x, i <> j /\ chs !! i = Some x /\ As i m).
      { intros m. rewrite HA. apply or_iff_compat_l. split.
        - intros (i & x & Hi' & Hm). destruct (decide (i = j)) as [->|Hne]; [left; exact Hm|right; exists i, x; auto].
        - intros [Hm|(i & x & Hne & Hi' & Hm)]; eauto. }
      assert (Hun : forall m, ~ touch ev m -> (B m <-> A m)).
      { intros m Hm. rewrite HB, HA0. rewrite (Hsm m Hm). reflexivity. }
      exists B. split; [|split; [|split; [|exact Hun]]].
      + eapply (inv_fork _ _ _ _ D st) with (Rs := Rs) (As := As'); try eassumption.
        * intros i x Hi'. apply list_lookup_insert_Some in Hi' as [(-> & <- & _)|(Hne & Hi')]; [rewrite HAj; exact Hi|]. rewrite HAs by congruence. exact (Hch' _ _ Hi').
        * intros i x Hi'. apply list_lookup_insert_Some in Hi' as [(-> & <- & _)|(Hne & Hi')]; [exact I|]. rewrite HAs by congruence. exact (Hcs _ _ Hi').
        * intros m. reflexivity.
      + intros n Hn. eapply HR. apply Ht. exact Hn.
      + intros m Hm. destruct (touch_dec ev m) as [Hto|Hto].
        * pose proof (Ht _ Hto) as Hrm. rewrite (Hx' m Hrm), HB. split.
          -- intros [H|H]; [|auto]. destruct (decide (m ∈ s0)); auto.
          -- intros [H|[[H _]|[H|(i & x & Hne & Hi' & H)]]]; auto. exfalso. apply Hne. eapply Hdj; [|exact Hrm]. eapply inv_sub; [apply (Hch _ _ Hi')|exact H].
        * rewrite (untouched _ _ _ Hto), (Hx m Hm). apply or_iff_compat_l. symmetry. apply Hun. exact Hto.
    - apply stepped_calm; [exact I|exact Ha|exact Hx|]. eapply Hsame; [exact Hj|auto|exact I].
    - apply stepped_calm; [exact I|exact Ha|exact Hx|]. eapply Hsame; [exact Hj|auto|]. exact (Hcs _ _ Hj).
    - apply stepped_calm; [exact I|exact Ha|exact Hx|]. eapply Hsame; [exact Hj| |].
      + intros x Hin. apply elem_of_app. left. exact Hin.
      + exists r. split; [reflexivity|]. apply elem_of_app. right. left.
    - apply stepped_calm; [exact I|exact Ha|exact Hx|]. eapply Hsame; [exact Hj|auto|]. exact (Hcs _ _ Hj).
    - apply stepped_calm; [exact I|exact Ha|exact Hx|]. destruct (first_err log) as [e|] eqn:Ee.
      + apply inv_fail; [apply Hke; congruence|]. intros m Hm. apply HA in Hm as [[Hm Hn]|(j & x & Hj & Hm)]; [destruct (Hst m Hm); [contradiction|assumption]|].
        apply (HR j). eapply inv_sub; [apply (Hch _ _ Hj)|exact Hm].
      + eapply (inv_seq _ _ _ _ D st); [apply Hk; exact Ee|exact HD'|exact Hst|exact Hs0|]. intros m. rewrite HA. split; [|auto].
        intros [H|(j & x & Hj & Hm)]; [exact H|exfalso].
        rewrite Forall_lookup in Hf. specialize (Hf _ _ Hj). specialize (Hcs _ _ Hj). destruct x as [cs q]. unfold finished in Hf. simpl in *.
        destruct Hf as [-> | ->]; [|exact (Hcs m Hm)]. destruct Hcs as (r & -> & Hr). pose proof (first_err_none _ Ee _ _ Hr) as ->.
        eapply inv_ret; [apply (Hch _ _ Hj)|exact Hm].
  Qed.

  Lemma inv_step h R s0 E p A : inv h R s0 E p A -> stepped h R s0 E p A.
  Proof.
    induction 1 as [R s0 E D st p A Hok HD Hst Hs0 HA|R s0 E p A Hf HA|R s0 E D st t pa lim c chs log k A Rs As HD Hst Hs0 Hch IH Hcs HR Hdj Hk Hke HA].
    - destruct Hok as [D HE|D st p Hf|D st e k Hc Hk|D st n k H1 H2 H3|D st n sc k Hn H1|D st n sc k Hn Htc H1 H2 H3|D st n k Hn Hn0 H1|D st t pa lim c chs k Rs Hch HR Hdj Hk Hke].
      + intros ev p2 Hp. exfalso. eapply ret_nostep; exact Hp.
      + intros ev p2 Hp Ha Hx. assert (HAR : forall m, A m -> R m) by (intros m Hm; apply HA in Hm as [Hm Hn]; destruct (Hst m Hm); [contradiction|assumption]).
        apply failing_inv in Hf. destruct p as [r|e k|]; simpl in Hf; [exfalso; eapply ret_nostep; exact Hp| |contradiction].
        destruct (pstep_vis _ _ _ Hp) as (r & -> & ->). destruct Hf as [Hc Hf]. apply stepped_calm; [auto|exact Ha|exact Hx|]. apply inv_fail; auto.
      + intros ev p2 Hp Ha Hx. destruct (pstep_vis _ _ _ Hp) as (r & -> & ->). apply stepped_calm; [auto|exact Ha|exact Hx|].
        eapply (inv_seq _ _ _ _ D st); eauto. intros m Hm. apply done_stays; [exact Ha|auto].
      + intros ev p2 Hp Ha Hx. destruct (pstep_vis _ _ _ Hp) as (r & -> & ->). cbn in r. apply stepped_calm; [exact I|exact Ha|exact Hx|]. simpl in Ha. destruct r.
        * eapply (inv_seq _ _ _ _ D st); eauto.
        * eapply (inv_seq _ _ _ _ D st); eauto.
        * eapply (inv_seq _ _ _ _ _ st); eauto. intros m [Hm| ->]; [apply (HD m Hm)|symmetry; exact Ha].
      + intros ev p2 Hp Ha Hx. destruct (pstep_vis _ _ _ Hp) as (r & -> & ->). cbn in r. simpl in Ha. rewrite (HD n Hn) in Ha. subst r. split; [exact I|].
        exists A. split; [|split; [intros m []|split; [exact Hx|reflexivity]]]. eapply (inv_seq _ _ _ _ D st); eauto.
      + intros ev p2 Hp Ha Hx. destruct (pstep_vis _ _ _ Hp) as (r & -> & ->). cbn in r. pose proof Ha as Ha0. simpl in Ha. destruct r; simpl.
        * split; [exact I|].
          assert (Hnst : n ∉ st).
          { intros Hin. assert (status_of h n = Active); [|congruence]. apply Hx; [exact Hn|]. destruct (decide (n ∈ s0)); [auto|right]. apply HA. auto. }
          exists (fun m => A m \/ m = n). split; [|split; [intros m ->; exact Hn|split]].
          -- eapply (inv_seq _ _ _ _ D (n :: st)); [apply H1; exact Hnst| | | |].
             ++ intros m Hm. apply done_stays; [exact Ha0|auto].
             ++ intros m Hm. apply elem_of_cons in Hm as [->|Hm]; auto.
             ++ intros m Hm. right. auto.
             ++ intros m. rewrite elem_of_cons, HA. split; [intros [[? ?]| ->]; auto|intros [[->|?] ?]; auto].
          -- intros m Hm. simpl. destruct (decide (n = m)) as [->|Hne]; [split; auto|]. rewrite (Hx m Hm). split; [intros [?|?]; auto|intros [?|[?|?]]; auto]. congruence.
          -- intros m Hm. split; [intros [?| ->]; [assumption|exfalso; apply Hm; reflexivity]|auto].
        * split.
          { symmetry in Ha. apply (Hx n Hn) in Ha as [Ha|Ha]; [|apply HA in Ha as [Ha _]]; apply Htc; auto. }
          exists A. split; [|split; [intros m []|split; [exact Hx|reflexivity]]].
          apply inv_fail; [exact H2|]. intros m Hm; apply HA in Hm as [Hm Hn']; destruct (Hst m Hm); [contradiction|assumption].
        * split; [exact I|]. exists A. split; [|split; [intros m []|split; [exact Hx|reflexivity]]].
          eapply (inv_seq _ _ _ _ _ st); eauto. intros m [Hm| ->]; [apply (HD m Hm)|symmetry; exact Ha].
      + intros ev p2 Hp Ha Hx. destruct (pstep_vis _ _ _ Hp) as (r & -> & ->). cbn in r. destruct r. simpl. split; [exact I|].
        assert (HRn : R n) by (destruct (Hst n (elem_of_list_here _ _)); [contradiction|assumption]).
        exists (fun m => A m /\ m <> n). split; [|split; [intros m ->; exact HRn|split]].
        * eapply (inv_seq _ _ _ _ _ st); [exact H1| | | |].
          -- intros m [Hm| ->]; simpl; [destruct (decide (n = m)); [reflexivity|apply HD; exact Hm]|]. destruct (decide (n = n)); [reflexivity|congruence].
          -- intros m Hm. apply Hst. right. exact Hm.
          -- intros m Hm. specialize (Hs0 m Hm). apply elem_of_cons in Hs0 as [->|Hs0]; [contradiction|exact Hs0].
          -- intros m. rewrite HA, elem_of_cons. split; [intros [[[->|?] ?] ?]; [congruence|auto]|]. intros [? ?]. split; [auto|]. intros ->. contradiction.
        * intros m Hm. simpl. destruct (decide (n = m)) as [->|Hne]; [split; [discriminate|intros [?|[_ ?]]; congruence]|]. rewrite (Hx m Hm).
          split; [intros [?|?]; auto|intros [?|[? ?]]; auto].
        * intros m Hm. split; [intros [? _]; assumption|]. intros H. split; [exact H|exact Hm].
      + eapply (fork_stepped _ _ _ _ D st) with (Rs := Rs) (As := fun _ _ => False); eauto.
        * intros j x Hj. destruct (Hch _ _ Hj) as [Hw Hok]. eapply (inv_seq _ _ _ _ D st); eauto. intros m. split; [contradiction|]. intros [? ?]. contradiction.
        * intros j x Hj Hrun. destruct (Hch _ _ Hj) as [Hw Hok]. congruence.
        * intros j x Hj. destruct (Hch _ _ Hj) as [-> _]. auto.
        * intros m. rewrite HA. split; [auto|]. intros [H|(j & x & _ & [])]. exact H.
    - intros ev p2 Hp Ha Hx. apply failing_inv in Hf. destruct p as [r|e k|]; simpl in Hf; [exfalso; eapply ret_nostep; exact Hp| |contradiction].
      destruct (pstep_vis _ _ _ Hp) as (r & -> & ->). destruct Hf as [Hc Hf]. apply stepped_calm; [auto|exact Ha|exact Hx|]. apply inv_fail; auto.
    - eapply (fork_stepped _ _ _ _ D st) with (Rs := Rs) (As := As); eauto.
  Qed.

  Lemma inv_cancel h i R s0 E p A : inv h R s0 E p A -> inv (OCancel i :: h) R s0 E p A.
  Proof. apply inv_mono. intros m. exact (fun x => x). Qed.
End Apart.

(** ** The runner's programs are [ok] *)
Section Runner.
  Context (k : config) (tasks : taskmap) (Hapart : apart tasks).
  Notation g := (k_vars k).
  Notation ok := (ok tasks).
  Notation edge := (edge tasks).

  Definition closed (R : tset) (x : str) : Prop := forall m, rtc edge x m -> R m.
  (** [R] has all that running [n] leads to, apart from what is done. *)
  Definition covers (R D : tset) (n : str) : Prop :=
    R n /\ forall t, tasks !! n = Some t -> (forall d, d ∈ t_deps t -> D d \/ closed R d) /\ (forall x, refers (t_run t) x -> closed R x).
  Lemma closed_covers R D n : closed R n -> covers R D n.
  Proof.
    intros H. split; [apply H; apply rtc_refl|]. intros t Ht. split.
    - intros d Hd. right. intros m Hm. apply H. eapply rtc_l; [|exact Hm]. exists t. auto.
    - intros x Hx m Hm. apply H. eapply rtc_l; [|exact Hm]. exists t. auto.
  Qed.
  Lemma closed_edge R n m : closed R n -> edge n m -> closed R m.
  Proof. intros H He x Hx. apply H. eapply rtc_l; eassumption. Qed.

  Ltac quiet := apply ok_vis; [intros; exact I|intros].
  Ltac failed := apply ok_fail; apply failing_ret.
  Ltac fine := apply ok_ret; intros ? [].

  Lemma ok_env R s0 E D st ln vars env f : (forall m, ok R s0 E D st (f m)) -> ok R s0 E D st (interpolate_env_then k ln vars env f).
  Proof. intros Hf. unfold interpolate_env_then. destruct (decide _); [apply Hf|]. quiet. destruct (interpolate_env _ _ _ _); [apply Hf|failed]. Qed.
  Lemma ok_dir R s0 E D st t pa ln c vars f : (forall d, ok R s0 E D st (f d)) -> ok R s0 E D st (resolve_dir_then k t pa ln c vars f).
  Proof.
    intros Hf. unfold resolve_dir_then. destruct (match (match c with [] => t_dir t | _ => c end) with [] => k_dir k | _ => _ end) eqn:E'; [apply Hf|].
    destruct (interpolate _ _ _); [|failed]. quiet. destruct r; try failed. apply Hf.
  Qed.
  Lemma ok_command R st D c t pa l env a : ok R st none D st (execute_command k c t pa l env a).
  Proof.
    unfold execute_command. destruct (trim_space (c_cmd c)); [failed|]. quiet.
    destruct (interpolate _ _ _); [|failed]. apply ok_env. intros cmdenv. apply ok_dir. intros d.
    destruct (k_dry k); [quiet; fine|].
    set (go := Vis (EOrder cmdenv) _). assert (ok R st none D st go) as Hgo.
    { unfold go. quiet. quiet. destruct r1; [|failed]. quiet. destruct r1; [fine|failed]. }
    destruct (is_silent _); [exact Hgo|]. quiet. exact Hgo.
  Qed.
  Lemma ok_log R st D rt lg t pa l env a : ok R st none D st (execute_run_item k rt (RLog lg) t pa l env a).
  Proof. simpl. quiet. destruct (interpolate _ _ _); [|failed]. destruct (k_dry k); quiet; fine. Qed.

  Lemma refers_in items n : (exists r, RTask r ∈ items /\ n = r_task r) -> refers items n.
  Proof.
    intros (r & Hin & ->). induction items as [|it items IH]; [inversion Hin|].
    apply elem_of_cons in Hin as [<-|Hin]; [constructor|]. apply refers_later. auto.
  Qed.
  Lemma refers_par items i o sub n : items !! i = Some (RPar o sub) -> refers sub n -> refers items n.
  Proof.
    revert i. induction items as [|it items IH]; intros i Hi Hn; [discriminate|].
    destruct i as [|i]; simpl in Hi; [injection Hi as ->; apply refers_inside; exact Hn|]. apply refers_later. eauto.
  Qed.

  (** The dependencies of the tasks that [items] name. *)
  Definition shared_deps (items : list run_item) : tset :=
    fun d => exists r t, RTask r ∈ items /\ tasks !! r_task r = Some t /\ d ∈ t_deps t.

  Section Calls.
    Context (rt : str -> args -> prog).
    Context (Hrt : forall R D n a st, covers R D n -> (forall m, m ∈ st -> tc edge m n) -> ok R st (fun m => m = n) D st (rt n a)).
    Context (T : str) (t : task) (Ht : tasks !! T = Some t) (st : list str) (R : tset).
    Context (Hst : forall m n, m ∈ st -> edge T n -> tc edge m n).
    Context (HR : forall x, refers (t_run t) x -> closed R x).

    Lemma ok_pre_deps s0 (E D : tset) deps seen a kk :
      (forall d, d ∈ deps -> closed R d /\ forall m, m ∈ st -> tc edge m d) -> (forall d, d ∈ seen -> D d) -> (forall m, m ∈ s0 -> m ∈ st) ->
      (forall (D' : tset) seen', (forall m, D m -> D' m) -> (forall d, d ∈ seen' -> D' d) -> (forall d, d ∈ deps -> D' d) -> ok R s0 E D' st (kk seen')) ->
      ok R s0 E D st (pre_deps rt deps seen a kk).
    Proof.
      intros Hd Hseen Hs. revert D seen Hseen. induction deps as [|d deps IH]; intros D seen Hseen Hk; simpl.
      { apply Hk; auto. intros d H. inversion H. }
      assert (Hd' : forall d', d' ∈ deps -> closed R d' /\ forall m, m ∈ st -> tc edge m d') by (intros d' H; apply Hd; right; exact H).
      destruct (decide (d ∈ seen)) as [Hin|Hin].
      { apply IH; [exact Hd'|exact Hseen|]. intros D' seen' H1 H2 H3. apply Hk; auto. intros d' H. apply elem_of_cons in H as [->|H]; auto. }
      assert (Hrest : forall D' : tset, (forall m, D m -> D' m) -> D' d -> ok R s0 E D' st (pre_deps rt deps ({[d]} ∪ seen) a kk)).
      { intros D' H1 H2. apply IH; [exact Hd'| |].
        - intros d' H. apply elem_of_union in H as [H|H]; [apply elem_of_singleton in H as ->; exact H2|auto].
        - intros D2 seen2 H3 H4 H5. apply Hk; auto. intros d' H. apply elem_of_cons in H as [->|H]; auto. }
      assert (Hrun : ok R s0 E D st (and_then (rt d a) (RPreDep d) (pre_deps rt deps ({[d]} ∪ seen) a kk))).
      { destruct (Hd d (elem_of_list_here _ _)) as [Hc Htc]. eapply ok_then; [apply Hrt; [apply closed_covers; exact Hc|exact Htc]|exact Hs|]. intros D' H1 H2. auto. }
      apply ok_get; [exact Hrun|exact Hrun|]. apply Hrest; auto.
    Qed.
    Lemma ok_pre_resolve (D : tset) items seen a : (forall r, RTask r ∈ items -> closed R (r_task r) /\ forall m, m ∈ st -> tc edge m (r_task r)) ->
      (forall d, d ∈ seen -> D d) -> ok R st (shared_deps items) D st (pre_resolve tasks rt items seen a).
    Proof.
      enough (Hg : forall (D' E : tset), (forall d, d ∈ seen -> D' d) -> (forall r, RTask r ∈ items -> closed R (r_task r) /\ forall m, m ∈ st -> tc edge m (r_task r)) ->
                (forall d : str, E d -> D' d \/ shared_deps items d) -> ok R st E D' st (pre_resolve tasks rt items seen a)).
      { intros H1 H2. apply Hg; auto. }
      revert seen. induction items as [|it items IH]; intros seen D' E Hseen Hi HE; simpl.
      { apply ok_ret. intros m Hm. destruct (HE m Hm) as [H|(r & t' & H & _)]; [exact H|inversion H]. }
      assert (Hi' : forall r, RTask r ∈ items -> closed R (r_task r) /\ forall m, m ∈ st -> tc edge m (r_task r)) by (intros r H; apply Hi; right; exact H).
      assert (Hskip : (forall r, it <> RTask r) -> ok R st E D' st (pre_resolve tasks rt items seen a)).
      { intros Hn. apply IH; auto. intros d Hd. destruct (HE d Hd) as [H|(r & t' & H & H1 & H2)]; [auto|right]. exists r, t'. split; [|auto].
        apply elem_of_cons in H as [H|H]; [exfalso; eapply Hn; symmetry; exact H|exact H]. }
      destruct it; try (apply Hskip; discriminate). destruct (tasks !! r_task t0) as [t'|] eqn:Et; [|failed].
      destruct (Hi t0 (elem_of_list_here _ _)) as [Hc Htc].
      apply ok_pre_deps; [|exact Hseen|auto|].
      - intros d Hd. assert (He : edge (r_task t0) d) by (exists t'; auto). split; [eapply closed_edge; eassumption|]. intros m Hm. eapply tc_r; [apply Htc; exact Hm|exact He].
      - intros D2 seen2 H1 H2 H3. apply IH; auto. intros d Hd. destruct (HE d Hd) as [H|(r & t2 & H & H4 & H5)]; [auto|].
        apply elem_of_cons in H as [H|H]; [|right; exists r, t2; auto]. injection H as ->. left. apply H3. congruence.
    Qed.

    Lemma ok_block (D : tset) o items pa i l env c sub kk : t_run t !! i = Some (RPar o items) -> (forall d, shared_deps items d -> D d) ->
      (forall log, first_err log = None -> ok R st none D st (kk log)) -> (forall log, first_err log <> None -> failing (kk log)) ->
      ok R st none D st (fork k rt o items t pa l env c sub kk).
    Proof.
      intros Hi HD Hk Hke. unfold fork.
      apply (ok_fork tasks) with (Rs := fun j m => exists r, items !! j = Some (RTask r) /\ leads tasks (r_task r) m); [| | |exact Hk|exact Hke].
      - intros j x Hj. rewrite list_lookup_imap in Hj. destruct (items !! j) as [it|] eqn:Ej; [|discriminate Hj]. injection Hj as <-. split; [reflexivity|].
        simpl snd. destruct it; try (simpl; failed).
        + apply ok_command.
        + simpl. destruct (k_dry k); [quiet; fine|].
          eapply (ok_weaken tasks); [apply Hrt| intros ? []].
          * split; [exists t0; split; [reflexivity|left; reflexivity]|]. intros t' Ht'. split.
            -- intros d Hd. left. apply HD. exists t0, t'. split; [eapply elem_of_list_lookup_2; exact Ej|auto].
            -- intros x Hx m Hm. exists t0. split; [reflexivity|]. right. exists t', x. auto.
          * intros m Hm. apply Hst; [exact Hm|]. exists t. split; [exact Ht|right]. eapply refers_par; [exact Hi|]. apply refers_in.
            exists t0. split; [eapply elem_of_list_lookup_2; exact Ej|reflexivity].
        + apply ok_log.
      - intros j m (r & Hj & Hm).
        assert (Hc : closed R (r_task r)).
        { apply HR. eapply refers_par; [exact Hi|]. apply refers_in. exists r. split; [eapply elem_of_list_lookup_2; exact Hj|reflexivity]. }
        destruct Hm as [->|(t' & x & Ht' & Hx & Hm)]; [apply Hc; apply rtc_refl|]. apply Hc. eapply rtc_l; [|exact Hm]. exists t'. auto.
      - intros j1 j2 m (r1 & Hj1 & Hm1) (r2 & Hj2 & Hm2). destruct (decide (j1 = j2)) as [E|Hne]; [exact E|exfalso].
        eapply (Hapart T t i o items j1 j2 r1 r2 m); eassumption.
    Qed.
    Lemma ok_parallel D o items pa i l env a : t_run t !! i = Some (RPar o items) ->
      ok R st none D st (execute_parallel k tasks rt o items t pa l env a).
    Proof.
      intros Hi. unfold execute_parallel. eapply ok_then; [apply ok_pre_resolve|auto|].
      - intros r Hr. assert (Href : refers (t_run t) (r_task r)) by (eapply refers_par; [exact Hi|]; apply refers_in; eauto).
        split; [apply HR; exact Href|]. intros m Hm. apply Hst; [exact Hm|]. exists t. auto.
      - intros d Hd. apply not_elem_of_empty in Hd as [].
      - intros D' _ HD'. destruct (k_dry k); [quiet; fine|].
        destruct (is_tui_mode _ && _ && _).
        + unfold execute_tui.
          match goal with |- context [fork _ _ _ _ _ _ _ _ _ _ ?f] => assert (Hf : forall log, first_err log = None -> ok R st none D' st (f log));
            [|assert (Hfe : forall log, first_err log <> None -> failing (f log))] end.
          { intros log Hl. destruct (is_silent _); [|quiet]; rewrite Hl; fine. }
          { intros log Hl. destruct (first_err log) as [e|] eqn:Ee; [|congruence]. destruct (is_silent _); [constructor|]. constructor; [intros; exact I|]. intros _. constructor. }
          simpl a_tui. destruct (a_tui a); [eapply ok_block; eassumption|]. quiet. quiet. destruct r0; [eapply ok_block; eassumption|failed].
        + eapply ok_block; [exact Hi|exact HD'| |].
          * intros log Hl. rewrite Hl. fine.
          * intros log Hl. destruct (first_err log) as [e|] eqn:Ee; [constructor|congruence].
    Qed.

    Lemma ok_item D it i l env a : t_run t !! i = Some it -> ok R st none D st (execute_item k tasks rt it t i l env a).
    Proof.
      intros Hi. destruct it; simpl.
      - apply ok_command.
      - destruct (k_dry k); [quiet; fine|]. assert (Href : refers (t_run t) (r_task t0)) by (apply refers_in; exists t0; split; [eapply elem_of_list_lookup_2; exact Hi|reflexivity]).
        eapply (ok_weaken tasks); [apply Hrt; [apply closed_covers; apply HR; exact Href|]|intros ? []].
        intros m Hm. apply Hst; [exact Hm|]. exists t. auto.
      - apply (ok_log R st D rt l0 t [i] l env a).
      - quiet. destruct (interpolate_prompt _ _ _); [|failed]. destruct (k_dry k); [quiet; fine|]. quiet. destruct r0; [quiet; fine|failed].
      - destruct (k_dry k); [quiet; fine|]. quiet. quiet. eapply ok_parallel. exact Hi.
    Qed.
    Lemma ok_items (D : tset) items i ex sk l env a : (forall j it, items !! j = Some it -> t_run t !! (i + j) = Some it) ->
      ok R st none D st (execute_items k tasks rt items t i ex sk l env a).
    Proof.
      revert i ex sk D. induction items as [|it items IH]; intros i ex sk D Hi; [simpl; destruct ex, sk; first [failed|fine]|]. simpl.
      assert (Hi' : forall j it', items !! j = Some it' -> t_run t !! (S i + j) = Some it') by (intros j it' Hj; rewrite Nat.add_succ_comm; apply (Hi (S j)); exact Hj).
      assert (Hi0 : t_run t !! i = Some it) by (rewrite <- (Nat.add_0_r i); apply Hi; reflexivity).
      apply ok_vis; [intros; exact I|]. intros done. cbn in done. destruct done; [failed|]. destruct (negb _); [quiet; apply IH; exact Hi'|].
      set (go := bind _ _). assert (Hgo : ok R st none D st go).
      { unfold go. eapply ok_bind; [apply ok_item; exact Hi0|auto| |].
        - intros D' _ _. quiet. apply IH. exact Hi'.
        - intros e. constructor; [intros; exact I|]. intros _. constructor. }
      destruct (item_when it) as [|x w]; [exact Hgo|]. quiet. destruct (evaluate _ _ _) as [[|]|]; [exact Hgo| |failed]. quiet. apply IH. exact Hi'.
    Qed.
    Lemma ok_task D a : ok R st none D st (execute_task k tasks rt t a).
    Proof.
      unfold execute_task.
      assert (Hw : forall l vars, ok R st none D st
                (interpolate_env_then k (t_line t) vars (smap_get (merge_maps (k_env k) (t_env t))) (fun env => execute_items k tasks rt (t_run t) t 0 0 0 l env a))).
      { intros l vars. apply ok_env. intros m. apply ok_items. auto. }
      destruct (t_vars t).
      - quiet. quiet. destruct (resolve_vars _ _ _ _); [|failed]. quiet. apply Hw.
      - quiet. apply Hw.
    Qed.
    Lemma ok_deps s0 E (D : tset) deps a kk : (forall d, d ∈ deps -> d ∈ t_deps t) -> (forall d, d ∈ deps -> D d \/ closed R d) -> (forall m, m ∈ s0 -> m ∈ st) ->
      (forall D' : tset, (forall m, D m -> D' m) -> ok R s0 E D' st kk) -> (forall (D' : tset) d a', D' d -> ok R st none D' st (rt d a')) ->
      ok R s0 E D st (run_deps rt T deps a kk).
    Proof.
      intros Hd Hc Hs Hk Hdone. revert D Hc Hk. induction deps as [|d deps IH]; intros D Hc Hk; simpl; [apply Hk; auto|].
      assert (Hrest : forall D' : tset, (forall m, D m -> D' m) -> ok R s0 E D' st (run_deps rt T deps a kk)).
      { intros D' HD'. apply IH.
        - intros d' H. apply Hd. right. exact H.
        - intros d' H. destruct (Hc d') as [H'|H']; [right; exact H|auto|auto].
        - intros D2 H2. apply Hk. auto. }
      destruct (Hc d (elem_of_list_here _ _)) as [HDd|Hcl].
      - eapply ok_then; [apply Hdone; exact HDd|exact Hs|]. intros D' H1 _. apply Hrest. exact H1.
      - eapply ok_then; [apply Hrt|exact Hs|intros D' H1 _; apply Hrest; exact H1].
        + apply closed_covers. exact Hcl.
        + intros m Hm. apply Hst; [exact Hm|]. exists t. split; [exact Ht|left]. apply Hd. left.
    Qed.
  End Calls.

  Lemma ok_run_done fuel R (D : tset) d a st : D d -> ok R st none D st (run_task k tasks fuel d a).
  Proof. intros Hd. destruct fuel; simpl; [failed|]. apply ok_claim_done; [exact Hd|]. fine. Qed.

  Lemma ok_run_task fuel R D n a st : covers R D n -> (forall m, m ∈ st -> tc edge m n) -> ok R st (fun m => m = n) D st (run_task k tasks fuel n a).
  Proof.
    revert R D n a st. induction fuel as [|fuel IH]; intros R D n a st [HRn Hcov] Hst; simpl; [failed|].
    apply ok_claim; [exact HRn|exact Hst| |constructor; [intros; exact I|intros; constructor]|].
    - intros Hn. destruct (tasks !! n) as [t|] eqn:Et; [|failed]. destruct (Hcov t eq_refl) as [Hdeps Hrefs].
      assert (Hdone : forall D', ok R st (fun m => m = n) D' (n :: st) (Vis (EDone n) (fun _ => Ret None))).
      { intros D'. apply ok_complete; [exact Hn|exact Hn|]. apply ok_ret. auto. }
      assert (Hst' : forall m d, m ∈ n :: st -> edge n d -> tc edge m d).
      { intros m d Hm He. apply elem_of_cons in Hm as [->|Hm]; [apply tc_once; exact He|]. eapply tc_r; [apply Hst; exact Hm|exact He]. }
      set (rest := run_deps _ _ _ _ _). assert (Hrest : ok R st (fun m => m = n) D (n :: st) rest).
      { unfold rest. eapply (ok_deps (run_task k tasks fuel) IH n t Et (n :: st) R Hst').
        - auto.
        - exact Hdeps.
        - intros m Hm. right. exact Hm.
        - intros D' HD'. destruct (t_run t) eqn:Erun; [apply Hdone|]. eapply ok_then; [apply (ok_task (run_task k tasks fuel) IH n t Et (n :: st) R Hst')| |].
          + rewrite Erun. exact Hrefs.
          + intros m Hm. right. exact Hm.
          + intros D2 _ _. apply Hdone.
        - intros D' d a' Hd. apply ok_run_done. exact Hd. }
      set (body := if _ && _ then _ else rest). assert (Hbody : ok R st (fun m => m = n) D (n :: st) body).
      { unfold body. destruct (_ && _); [|exact Hrest]. quiet. exact Hrest. }
      destruct (t_when t); [exact Hbody|]. quiet. destruct (evaluate _ _ _) as [[|]|]; [exact Hbody| |failed]. quiet. apply Hdone.
    - apply ok_ret. auto.
  Qed.

  Theorem apart_claims root h p n sc : rtc (cstep g) ([], run_with_tasks k tasks root) (h, p) -> OClaim n sc Active ∈ h -> tc edge n n.
  Proof.
    intros Hr Hin. set (R := fun _ : str => True).
    assert (H : exists A, inv tasks h R [] (fun m => m = root) p A /\ exact h R [] A /\ forall ev, ev ∈ h -> fine_step (fun n => tc edge n n) h ev).
    { refine (rtc_ind_r (fun s => exists A, inv tasks s.1 R [] (fun m => m = root) s.2 A /\ exact s.1 R [] A /\ forall ev, ev ∈ s.1 -> fine_step (fun n => tc edge n n) s.1 ev)
                ([], run_with_tasks k tasks root) _ _ (h, p) Hr).
      - exists none. split; [|split].
        + eapply (inv_seq tasks _ _ _ _ none []).
          * apply ok_run_task; [|intros m H; inversion H]. split; [exact I|]. intros t Ht. split; [intros d _; right|intros x _]; intros m _; exact I.
          * intros m [].
          * intros m H. inversion H.
          * auto.
          * intros m. split; [intros []|intros [H _]; inversion H].
        + intros m _. simpl. split; [discriminate|]. intros [H|[]]. inversion H.
        + intros ev H. inversion H.
      - intros [h1 p1] z H1 Hz (A & Hi & Hx & Hf). inversion Hz; subst; simpl in *.
        + destruct (inv_step tasks g _ _ _ _ _ _ Hi _ _ H2 H4 Hx) as (Hfine & A' & Hi' & _ & Hx' & _). exists A'. split; [exact Hi'|]. split; [exact Hx'|].
          intros e He. apply elem_of_cons in He as [->|He]; [exact Hfine|apply (Hf e He)].
        + exists A. split; [apply inv_cancel; exact Hi|]. split; [exact Hx|].
          intros e He. apply elem_of_cons in He as [->|He]; [exact I|apply (Hf e He)]. }
    destruct H as (A & _ & _ & Hf). exact (Hf _ Hin).
  Qed.
End Runner.
