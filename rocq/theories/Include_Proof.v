(** Proofs about includes. *)
From Verif Require Import Base Types_Model Valid_Model Path_Model StrOrder Cond_Model Include_Model Include_Spec Vars_Proof.

Lemma prefixed_inj ns n m : prefixed ns n = prefixed ns m -> n = m.
Proof. unfold prefixed. intros H. apply app_inv_head in H. injection H as H. exact H. Qed.

Lemma qualify_cons ns nss m : qualify (ns :: nss) m = prefixed ns (qualify nss m).
Proof. reflexivity. Qed.

Definition oracle_ok (orc : oracle) : Prop :=
  (forall p m, iteration_order m (or_includes orc p m)) /\
  (forall p m, iteration_order m (or_tasks orc p m)) /\
  (forall p m, iteration_order m (or_aliases orc p m)).

Lemma iteration_order_NoDup {A} (m : gmap str A) o : iteration_order m o -> NoDup o.
Proof. intros H. unfold iteration_order in H. rewrite H. apply NoDup_fst_map_to_list; apply _. Qed.

(** ** Adding the tasks of one include *)
Definition contrib (ns : str) (r : presult) (k : str) (t : task) : Prop :=
  exists n t0, pr_tasks r !! n = Some t0 /\ k = prefixed ns n /\ t = include_task ns r n t0.

Lemma add_tasks_spec ns ip r : forall order tm tm', NoDup order -> add_tasks ns ip r order tm = Ok tm' ->
  (forall n, n ∈ order -> is_Some (pr_tasks r !! n) -> tm !! prefixed ns n = None) /\
  (forall k t, tm' !! k = Some t <-> tm !! k = Some t \/
     exists n t0, n ∈ order /\ pr_tasks r !! n = Some t0 /\ k = prefixed ns n /\ t = include_task ns r n t0).
Proof.
  induction order as [|n order IH]; intros tm tm' Hnd H; simpl in H.
  - injection H as <-. split; [intros n Hn; apply elem_of_nil in Hn; contradiction|]. intros k t. split; [auto|].
    intros [H|(n & t0 & Hn & _)]; [exact H|]. apply elem_of_nil in Hn; contradiction.
  - apply NoDup_cons in Hnd as [Hnin Hnd]. destruct (pr_tasks r !! n) as [t|] eqn:Et.
    + destruct (tm_has tm (prefixed ns n)) eqn:Eh; [discriminate|].
      assert (tm !! prefixed ns n = None) as Hnone.
      { unfold tm_has in Eh. apply bool_decide_eq_false in Eh. apply eq_None_not_Some. exact Eh. }
      destruct (IH _ _ Hnd H) as [H1 H2]. split.
      * intros m Hm Hs. apply elem_of_cons in Hm as [->|Hm]; [exact Hnone|].
        specialize (H1 m Hm Hs). apply lookup_insert_None in H1 as [H1 _]. exact H1.
      * intros k u. rewrite H2. split.
        -- intros [Hk|(m & t0 & Hm & Ht0 & -> & ->)].
           ++ apply lookup_insert_Some in Hk as [[<- <-]|[_ Hk]]; [right|left; exact Hk].
              exists n, t. repeat split; auto. left.
           ++ right. exists m, t0. repeat split; auto. right; exact Hm.
        -- intros [Hk|(m & t0 & Hm & Ht0 & -> & ->)].
           ++ left. rewrite lookup_insert_ne; [exact Hk|]. intros <-. congruence.
           ++ apply elem_of_cons in Hm as [->|Hm].
              ** left. rewrite Et in Ht0. injection Ht0 as <-. apply lookup_insert.
              ** right. exists m, t0. auto.
    + destruct (IH _ _ Hnd H) as [H1 H2]. split.
      * intros m Hm Hs. apply elem_of_cons in Hm as [->|Hm]; [destruct Hs; congruence|]. auto.
      * intros k u. rewrite H2. split; (intros [Hk|(m & t0 & Hm & Ht0 & -> & ->)]; [left; exact Hk|right]).
        -- exists m, t0. repeat split; auto. right; exact Hm.
        -- apply elem_of_cons in Hm as [->|Hm]; [congruence|]. exists m, t0. auto.
Qed.

Lemma add_tasks_ok ns ip r : forall order tm, NoDup order ->
  (forall n, n ∈ order -> is_Some (pr_tasks r !! n) -> tm !! prefixed ns n = None) ->
  exists tm', add_tasks ns ip r order tm = Ok tm'.
Proof.
  induction order as [|n order IH]; intros tm Hnd H; simpl; [eauto|].
  apply NoDup_cons in Hnd as [Hnin Hnd]. destruct (pr_tasks r !! n) as [t|] eqn:Et.
  - assert (tm !! prefixed ns n = None) as Hnone by (apply H; [left|eauto]).
    destruct (tm_has tm (prefixed ns n)) eqn:Eh.
    + unfold tm_has in Eh. apply bool_decide_eq_true in Eh as [? ?]. congruence.
    + apply IH; [exact Hnd|]. intros m Hm Hs. rewrite lookup_insert_ne.
      * apply H; [right; exact Hm|exact Hs].
      * intros Heq. apply prefixed_inj in Heq. subst. contradiction.
  - apply IH; [exact Hnd|]. intros m Hm. apply H. right; exact Hm.
Qed.

Section Loop.
  Context (orc : oracle) (Horc : oracle_ok orc) (parse : list str -> str -> res perr presult).
  Context (nsp : list str) (path : str) (incs : gmap str str).
  Notation P ns p := (parse (nsp ++ [ns]) (include_path (dir path) p)).

  Lemma loop_spec : forall order tm tm', NoDup order -> include_loop orc parse nsp path incs order tm = Ok tm' ->
    (forall ns p, ns ∈ order -> incs !! ns = Some p -> exists r, P ns p = Ok r) /\
    (forall k t, tm' !! k = Some t <-> tm !! k = Some t \/
       exists ns p r, ns ∈ order /\ incs !! ns = Some p /\ P ns p = Ok r /\ contrib ns r k t) /\
    (forall ns p r k t, ns ∈ order -> incs !! ns = Some p -> P ns p = Ok r -> contrib ns r k t -> tm !! k = None) /\
    (forall ns1 p1 r1 t1 ns2 p2 r2 t2 k, ns1 ∈ order -> incs !! ns1 = Some p1 -> P ns1 p1 = Ok r1 -> contrib ns1 r1 k t1 ->
       ns2 ∈ order -> incs !! ns2 = Some p2 -> P ns2 p2 = Ok r2 -> contrib ns2 r2 k t2 -> ns1 = ns2).
  Proof.
    induction order as [|ns order IH]; intros tm tm' Hnd H; simpl in H.
    - injection H as <-. repeat split.
      1,4,5: intros; match goal with [H : _ ∈ [] |- _] => apply elem_of_nil in H; contradiction end.
      + auto.
      + intros [H|(ns & p & r & Hn & _)]; [exact H|]. apply elem_of_nil in Hn; contradiction.
    - apply NoDup_cons in Hnd as [Hnin Hnd]. destruct (incs !! ns) as [p|] eqn:Ep.
      + unfold resolve_include in H. destruct (P ns p) as [r|e] eqn:Er; [|discriminate].
        set (to := or_tasks orc (nsp ++ [ns]) (pr_tasks r)) in *.
        assert (Hto : iteration_order (pr_tasks r) to) by apply Horc.
        destruct (add_tasks ns (include_path (dir path) p) r to tm) as [tm1|e] eqn:Ea; [|discriminate].
        apply add_tasks_spec in Ea as [A1 A2]; [|eapply iteration_order_NoDup; exact Hto].
        pose proof (iteration_order_elem _ _ Hto) as Hel.
        assert (A1' : forall k t, contrib ns r k t -> tm !! k = None).
        { intros k t (n & t0 & Hn & -> & _). apply A1; [apply Hel|]; eauto. }
        assert (A2' : forall k t, tm1 !! k = Some t <-> tm !! k = Some t \/ contrib ns r k t).
        { intros k t. rewrite A2. split; (intros [Hk|Hk]; [left; exact Hk|right]).
          - destruct Hk as (n & t0 & _ & Hn & -> & ->). exists n, t0. auto.
          - destruct Hk as (n & t0 & Hn & -> & ->). exists n, t0. split; [apply Hel; eauto|auto]. }
        clear A1 A2. destruct (IH _ _ Hnd H) as (L1 & L2 & L3 & L4).
        split; [|split; [|split]].
        * intros ns' p' Hin Hp'. apply elem_of_cons in Hin as [->|Hin]; [|eauto].
          rewrite Ep in Hp'. injection Hp' as <-. eauto.
        * intros k t. rewrite L2, A2'. split.
          -- intros [[Hk|Hk]|(ns' & p' & r' & Hin & Hp' & Hr' & Hk)]; [left; exact Hk| |].
             ++ right. exists ns, p, r. split; [left|auto].
             ++ right. exists ns', p', r'. split; [right; exact Hin|auto].
          -- intros [Hk|(ns' & p' & r' & Hin & Hp' & Hr' & Hk)]; [left; left; exact Hk|].
             apply elem_of_cons in Hin as [->|Hin].
             ++ rewrite Ep in Hp'. injection Hp' as <-. rewrite Er in Hr'. injection Hr' as <-. left; right; exact Hk.
             ++ right. exists ns', p', r'. auto.
        * intros ns' p' r' k t Hin Hp' Hr' Hk. apply elem_of_cons in Hin as [->|Hin].
          -- rewrite Ep in Hp'. injection Hp' as <-. rewrite Er in Hr'. injection Hr' as <-. eapply A1'; exact Hk.
          -- pose proof (L3 ns' p' r' k t Hin Hp' Hr' Hk) as Hn. destruct (tm !! k) as [u|] eqn:Eu; [|reflexivity].
             rewrite (proj2 (A2' k u)) in Hn; [discriminate|]. left; exact Eu.
        * assert (Hcross : forall ns2 p2 r2 t1 t2 k, ns2 ∈ order -> incs !! ns2 = Some p2 -> P ns2 p2 = Ok r2 ->
            contrib ns r k t1 -> contrib ns2 r2 k t2 -> False).
          { intros ns2 p2 r2 t1 t2 k Hin Hp2 Hr2 H1 H2. pose proof (L3 ns2 p2 r2 k t2 Hin Hp2 Hr2 H2) as Hn.
            rewrite (proj2 (A2' k t1)) in Hn; [discriminate|]. right; exact H1. }
          intros ns1 p1 r1 t1 ns2 p2 r2 t2 k Hin1 Hp1 Hr1 H1 Hin2 Hp2 Hr2 H2.
          apply elem_of_cons in Hin1 as [->|Hin1]; apply elem_of_cons in Hin2 as [->|Hin2]; [reflexivity| | |eapply L4; eassumption].
          -- rewrite Ep in Hp1. injection Hp1 as <-. rewrite Er in Hr1. injection Hr1 as <-. exfalso. eauto.
          -- rewrite Ep in Hp2. injection Hp2 as <-. rewrite Er in Hr2. injection Hr2 as <-. exfalso. eauto.
      + destruct (IH _ _ Hnd H) as (L1 & L2 & L3 & L4).
        assert (Hel : forall ns' p', ns' ∈ ns :: order -> incs !! ns' = Some p' -> ns' ∈ order).
        { intros ns' p' Hin Hp'. apply elem_of_cons in Hin as [->|Hin]; [congruence|exact Hin]. }
        split; [|split; [|split]].
        * intros ns' p' Hin Hp'. eapply L1; [eapply Hel|]; eassumption.
        * intros k t. rewrite L2. split; (intros [Hk|(ns' & p' & r' & Hin & Hp' & Hr' & Hk)]; [left; exact Hk|right]).
          -- exists ns', p', r'. split; [right; exact Hin|auto].
          -- exists ns', p', r'. split; [eapply Hel; eassumption|auto].
        * intros ns' p' r' k t Hin Hp' Hr' Hk. eapply L3; [eapply Hel; eassumption| | |]; eassumption.
        * intros ns1 p1 r1 t1 ns2 p2 r2 t2 k Hin1 Hp1 Hr1 H1 Hin2 Hp2 Hr2 H2.
          eapply (L4 ns1 p1 r1 t1 ns2 p2 r2 t2 k); eauto.
  Qed.

  Lemma loop_ok : forall order tm, NoDup order ->
    (forall ns p, ns ∈ order -> incs !! ns = Some p -> exists r, P ns p = Ok r) ->
    (forall ns p r k t, ns ∈ order -> incs !! ns = Some p -> P ns p = Ok r -> contrib ns r k t -> tm !! k = None) ->
    (forall ns1 p1 r1 t1 ns2 p2 r2 t2 k, ns1 ∈ order -> incs !! ns1 = Some p1 -> P ns1 p1 = Ok r1 -> contrib ns1 r1 k t1 ->
       ns2 ∈ order -> incs !! ns2 = Some p2 -> P ns2 p2 = Ok r2 -> contrib ns2 r2 k t2 -> ns1 = ns2) ->
    exists tm', include_loop orc parse nsp path incs order tm = Ok tm'.
  Proof.
    induction order as [|ns order IH]; intros tm Hnd L1 L3 L4; simpl; [eauto|].
    apply NoDup_cons in Hnd as [Hnin Hnd].
    assert (Hin : forall x, x ∈ order -> x ∈ ns :: order) by (intros x Hx; right; exact Hx).
    destruct (incs !! ns) as [p|] eqn:Ep.
    - assert (Hns : ns ∈ ns :: order) by left.
      destruct (L1 ns p Hns Ep) as [r Er]. unfold resolve_include. rewrite Er.
      set (to := or_tasks orc (nsp ++ [ns]) (pr_tasks r)).
      assert (Hto : iteration_order (pr_tasks r) to) by apply Horc.
      pose proof (iteration_order_elem _ _ Hto) as Hel.
      destruct (add_tasks_ok ns (include_path (dir path) p) r to tm) as [tm1 Ea].
      { eapply iteration_order_NoDup; exact Hto. }
      { intros n _ [t Ht]. eapply (L3 ns p r); [exact Hns|exact Ep|exact Er|]. exists n, t. eauto. }
      rewrite Ea. apply add_tasks_spec in Ea as [_ A2]; [|eapply iteration_order_NoDup; exact Hto].
      apply IH; [exact Hnd|intros; eapply L1; eauto| |].
      + intros ns' p' r' k t Hin' Hp' Hr' Hk. destruct (tm1 !! k) as [u|] eqn:Eu; [|reflexivity]. exfalso.
        apply A2 in Eu as [Eu|(n & t0 & _ & Hn & -> & ->)].
        * rewrite (L3 ns' p' r' k t (Hin _ Hin') Hp' Hr' Hk) in Eu. discriminate.
        * assert (ns = ns') as ->; [|contradiction].
          eapply (L4 ns p r _ ns' p' r' t); eauto. exists n, t0. eauto.
      + intros; eapply (L4 ns1 p1 r1 t1 ns2 p2 r2 t2 k); eauto.
    - apply IH; [exact Hnd|intros; eapply L1; eauto|intros; eapply L3; eauto|].
      intros; eapply (L4 ns1 p1 r1 t1 ns2 p2 r2 t2 k); eauto.
  Qed.
End Loop.

(** ** The tasks of a file *)
Section Tree.
  Context (fs : fsys).

  (** What [include_task] reads of a parse result. *)
  Definition file_result (path : str) (bf : schema) : presult :=
    PResult path (f_vars bf) (f_env bf) (f_silent bf) (f_output bf) (f_dir bf) ∅ ∅.

  (** The tasks of a file with their origin, independently of any order. *)
  Inductive has : str -> list str -> str -> str -> task -> Prop :=
  | has_own path bf m t : fs !! path = Some (Some bf) -> f_tasks bf !! m = Some t ->
      has path [] m m (own_task path m t)
  | has_inc path bf ns p bf' nss m n t :
      fs !! path = Some (Some bf) -> f_includes bf !! ns = Some p ->
      fs !! include_path (dir path) p = Some (Some bf') ->
      has (include_path (dir path) p) nss m n t ->
      has path (ns :: nss) m (prefixed ns n) (include_task ns (file_result (include_path (dir path) p) bf') n t).

  Lemma own_tasks_lookup path bf n t : own_tasks path bf !! n = Some t <->
    exists t0, f_tasks bf !! n = Some t0 /\ t = own_task path n t0.
  Proof.
    unfold own_tasks. rewrite map_lookup_imap. destruct (f_tasks bf !! n) as [t0|]; simpl.
    - split; [intros H; injection H as <-; eauto|]. intros (t1 & H & ->). injection H as <-. reflexivity.
    - split; [discriminate|]. intros (t1 & H & _). discriminate.
  Qed.

  Lemma has_name path nss m n t : has path nss m n t -> n = qualify nss m.
  Proof. induction 1 as [|path bf ns p bf' nss m n t _ _ _ _ IH]; [reflexivity|]. rewrite qualify_cons, <- IH. reflexivity. Qed.

  Lemma has_det path nss m n1 t1 n2 t2 : has path nss m n1 t1 -> has path nss m n2 t2 -> n1 = n2 /\ t1 = t2.
  Proof.
    intros H; revert n2 t2. induction H as [path bf m t Hf Ht|path bf ns p bf' nss m n t Hf Hp Hf' _ IH]; intros n2 t2 H2.
    - inversion H2; subst. split; [reflexivity|]. congruence.
    - inversion H2 as [|? bf2 ? p2 bf2' ? ? n3 t3 Hf2 Hp2 Hf2' Hh]; subst.
      assert (bf2 = bf) as -> by congruence. assert (p2 = p) as -> by congruence.
      assert (bf2' = bf') as -> by congruence. destruct (IH _ _ Hh) as [-> ->]. auto.
  Qed.

  (** Success of a parse, structurally. *)
  Definition good_result (path : str) (r : presult) : Prop :=
    exists bf, fs !! path = Some (Some bf) /\
    (pr_path r = path /\ pr_vars r = f_vars bf /\ pr_env r = f_env bf /\ pr_silent r = f_silent bf /\
     pr_output r = f_output bf /\ pr_dir r = f_dir bf) /\
    (forall n t, pr_tasks r !! n = Some t <-> exists nss m, has path nss m n t).

  Definition unique_origin (path : str) : Prop :=
    forall n nss1 m1 t1 nss2 m2 t2, has path nss1 m1 n t1 -> has path nss2 m2 n t2 -> nss1 = nss2 /\ m1 = m2.

  Lemma include_task_result ns r r' n t :
    pr_vars r = pr_vars r' -> pr_env r = pr_env r' -> pr_silent r = pr_silent r' -> pr_output r = pr_output r' ->
    pr_dir r = pr_dir r' -> include_task ns r n t = include_task ns r' n t.
  Proof. intros H1 H2 H3 H4 H5. unfold include_task. rewrite H1, H2, H3, H4, H5. reflexivity. Qed.

  Context (orc : oracle) (Horc : oracle_ok orc).

  Lemma contrib_has path bf ns p r : fs !! path = Some (Some bf) -> f_includes bf !! ns = Some p ->
    good_result (include_path (dir path) p) r ->
    forall k t, contrib ns r k t <-> exists nss m, has path (ns :: nss) m k t.
  Proof.
    intros Hf Hp (bf' & Hf' & (Hr0 & Hr1 & Hr2 & Hr3 & Hr4 & Hr5) & Ht) k t. split.
    - intros (n & t0 & Hn & -> & ->). apply Ht in Hn as (nss & m & Hh). exists nss, m.
      rewrite (include_task_result ns r (file_result (include_path (dir path) p) bf')) by (simpl; assumption).
      eapply has_inc; eassumption.
    - intros (nss & m & Hh). inversion Hh as [|? bf2 ? p2 bf2' ? ? n3 t3 Hf2 Hp2 Hf2' Hh2]; subst.
      assert (bf2 = bf) as -> by congruence. assert (p2 = p) as -> by congruence.
      assert (bf2' = bf') as -> by congruence. exists n3, t3. split; [apply Ht; eauto|]. split; [reflexivity|].
      apply include_task_result; simpl; auto.
  Qed.

  Definition inv_result (path : str) (r : presult) : Prop :=
    good_result path r /\ unique_origin path /\ readable_tree fs path /\ Acc (flip (includes fs)) path.

  Lemma parse_sound fuel : forall visited nsp path r, parse_file fs orc fuel visited nsp path = Ok r -> inv_result path r.
  Proof.
    induction fuel as [|fuel IH]; intros visited nsp path r H; simpl in H; [discriminate|].
    destruct (decide (path ∈ visited)) as [|Hnvis]; [discriminate|].
    destruct (fs !! path) as [[bf|]|] eqn:Ef; try discriminate.
    set (io := or_includes orc nsp (f_includes bf)) in *.
    assert (Hio : iteration_order (f_includes bf) io) by apply Horc.
    pose proof (iteration_order_elem _ _ Hio) as Hel.
    destruct (include_loop _ _ _ _ _ _ _) as [tm|e] eqn:El; [|discriminate]. injection H as <-.
    apply (loop_spec orc Horc) in El as (L1 & L2 & L3 & L4); [|eapply iteration_order_NoDup; exact Hio].
    assert (Hchild : forall ns p, f_includes bf !! ns = Some p -> exists r,
      parse_file fs orc fuel ({[path]} ∪ visited) (nsp ++ [ns]) (include_path (dir path) p) = Ok r /\
      inv_result (include_path (dir path) p) r).
    { intros ns p Hp. destruct (L1 ns p) as [r Hr]; [apply Hel; eauto|exact Hp|]. exists r.
      split; [exact Hr|]. eapply IH; exact Hr. }
    split; [|split; [|split]].
    - exists bf. split; [exact Ef|]. split; [repeat split|]. simpl. intros n t. rewrite L2, own_tasks_lookup. split.
      + intros [(t0 & Ht0 & ->)|(ns & p & r & Hns & Hp & Hr & Hc)].
        * exists [], n. eapply has_own; eassumption.
        * destruct (Hchild ns p Hp) as (r' & Hr' & Hg & _). rewrite Hr in Hr'. injection Hr' as <-.
          apply (contrib_has path bf ns p r Ef Hp Hg) in Hc as (nss & m & Hh). eauto.
      + intros (nss & m & Hh). destruct nss as [|ns nss].
        * inversion Hh; subst. left. assert (bf0 = bf) as -> by congruence. eauto.
        * right. inversion Hh as [|? bf2 ? p ? ? ? n3 t3 Hf2 Hp ? ?]; subst.
          assert (bf2 = bf) as -> by congruence. destruct (Hchild ns p Hp) as (r & Hr & Hg & _).
          exists ns, p, r. split; [apply Hel; eauto|]. split; [exact Hp|]. split; [exact Hr|].
          apply (contrib_has path bf ns p r Ef Hp Hg). eauto.
    - (* origins are unique *)
      assert (Hcon : forall ns nss m n t, has path (ns :: nss) m n t -> exists p r,
        ns ∈ io /\ f_includes bf !! ns = Some p /\
        parse_file fs orc fuel ({[path]} ∪ visited) (nsp ++ [ns]) (include_path (dir path) p) = Ok r /\ contrib ns r n t).
      { intros ns nss m n t Hh. inversion Hh as [|? bf2 ? p ? ? ? n3 t3 Hf2 Hp ? ?]; subst.
        assert (bf2 = bf) as -> by congruence. destruct (Hchild ns p Hp) as (r & Hr & Hg & _).
        exists p, r. split; [apply Hel; eauto|]. split; [exact Hp|]. split; [exact Hr|].
        apply (contrib_has path bf ns p r Ef Hp Hg). eauto. }
      assert (Hown : forall m n t, has path [] m n t -> n = m /\ exists u, own_tasks path bf !! n = Some u).
      { intros m n t Hh. inversion Hh; subst. assert (bf0 = bf) as -> by congruence. split; [reflexivity|].
        eexists. apply own_tasks_lookup. eauto. }
      intros n [|ns1 nss1] m1 t1 [|ns2 nss2] m2 t2 H1 H2.
      + apply Hown in H1 as [-> _]. apply Hown in H2 as [-> _]. auto.
      + apply Hown in H1 as [-> [u Hu]]. apply Hcon in H2 as (p & r & Hin & Hp & Hr & Hc).
        rewrite (L3 _ _ _ _ _ Hin Hp Hr Hc) in Hu. discriminate.
      + apply Hown in H2 as [-> [u Hu]]. apply Hcon in H1 as (p & r & Hin & Hp & Hr & Hc).
        rewrite (L3 _ _ _ _ _ Hin Hp Hr Hc) in Hu. discriminate.
      + pose proof (Hcon _ _ _ _ _ H1) as (p1 & r1 & Hin1 & Hp1 & Hr1 & Hc1).
        pose proof (Hcon _ _ _ _ _ H2) as (p2 & r2 & Hin2 & Hp2 & Hr2 & Hc2).
        assert (ns1 = ns2) as -> by (eapply (L4 ns1 p1 r1 t1 ns2 p2 r2 t2 n); eassumption).
        inversion H1 as [|? bf3 ? p3 ? ? ? n3 t3 Hf3 Hp3 Hf3' Hh3]; subst.
        inversion H2 as [|? bf4 ? p4 ? ? ? n4 t4 Hf4 Hp4 Hf4' Hh4 Heq]; subst.
        assert (bf3 = bf) as -> by congruence. assert (bf4 = bf) as -> by congruence.
        assert (p4 = p3) as -> by congruence.
        match goal with [H : prefixed _ _ = prefixed _ _ |- _] => apply prefixed_inj in H; subst end.
        destruct (Hchild ns2 p3 Hp3) as (r & _ & _ & Hu & _).
        destruct (Hu _ _ _ _ _ _ _ Hh3 Hh4) as [-> ->]. auto.
    - intros f Hf. apply rtc_inv in Hf as [<-|(q & (bf2 & ns & p & Hf2 & Hp & ->) & Hf)]; [eauto|].
      assert (bf2 = bf) as -> by congruence. destruct (Hchild ns p Hp) as (r & _ & _ & _ & Hrd & _). apply Hrd. exact Hf.
    - constructor. intros q (bf2 & ns & p & Hf2 & Hp & ->).
      assert (bf2 = bf) as -> by congruence. destruct (Hchild ns p Hp) as (r & _ & _ & _ & _ & Ha). exact Ha.
  Qed.

  (** Completeness: a tree without problems parses, with enough fuel. *)
  Lemma parse_complete fuel : forall visited nsp path,
    path ∉ visited -> (forall v, v ∈ visited -> tc (includes fs) v path) ->
    size (dom fs ∖ visited) < fuel ->
    readable_tree fs path -> acyclic_tree fs path -> unique_origin path ->
    exists r, parse_file fs orc fuel visited nsp path = Ok r.
  Proof.
    induction fuel as [|fuel IH]; intros visited nsp path Hnv Hanc Hsz Hrd Hac Hun; [lia|]. simpl.
    destruct (decide (path ∈ visited)) as [|_]; [contradiction|].
    destruct (Hrd path (rtc_refl _ _)) as [bf Ef]. rewrite Ef.
    set (io := or_includes orc nsp (f_includes bf)).
    assert (Hio : iteration_order (f_includes bf) io) by apply Horc.
    pose proof (iteration_order_elem _ _ Hio) as Hel.
    assert (Hedge : forall ns p, f_includes bf !! ns = Some p -> includes fs path (include_path (dir path) p)).
    { intros ns p Hp. exists bf, ns, p. repeat split; assumption. }
    assert (Hchild : forall ns p, f_includes bf !! ns = Some p -> exists r,
      parse_file fs orc fuel ({[path]} ∪ visited) (nsp ++ [ns]) (include_path (dir path) p) = Ok r).
    { intros ns p Hp. pose proof (Hedge ns p Hp) as He. apply IH.
      - intros Hin. apply (Hac (include_path (dir path) p)); [apply rtc_once; exact He|].
        apply elem_of_union in Hin as [Hin|Hin].
        + apply elem_of_singleton in Hin. rewrite Hin in He |- *. apply tc_once. exact He.
        + eapply tc_r; [apply Hanc; exact Hin|exact He].
      - intros v Hv. apply elem_of_union in Hv as [Hv|Hv].
        + apply elem_of_singleton in Hv as ->. apply tc_once; exact He.
        + eapply tc_r; [apply Hanc; exact Hv|exact He].
      - assert (size (dom fs ∖ ({[path]} ∪ visited)) < size (dom fs ∖ visited)); [|lia].
        apply subset_size. split; [intros x; rewrite !elem_of_difference, elem_of_union; tauto|].
        intros Hs. assert (path ∈ dom fs ∖ visited) as Hin.
        { apply elem_of_difference. split; [apply elem_of_dom; eauto|exact Hnv]. }
        apply Hs, elem_of_difference in Hin as [_ Hin]. apply Hin, elem_of_union. left. apply elem_of_singleton. reflexivity.
      - intros f Hf. apply Hrd. eapply rtc_l; eassumption.
      - intros f Hf. apply Hac. eapply rtc_l; eassumption.
      - intros n nss1 m1 t1 nss2 m2 t2 H1 H2.
        destruct (Hrd (include_path (dir path) p)) as [bf' Ef']; [apply rtc_once; exact He|].
        pose proof (has_inc path bf ns p bf' nss1 m1 n t1 Ef Hp Ef' H1) as H1'.
        pose proof (has_inc path bf ns p bf' nss2 m2 n t2 Ef Hp Ef' H2) as H2'.
        destruct (Hun _ _ _ _ _ _ _ H1' H2') as [Heq ->]. injection Heq as ->. auto. }
    destruct (loop_ok orc Horc (parse_file fs orc fuel ({[path]} ∪ visited)) nsp path (f_includes bf) io (own_tasks path bf))
      as [tm Htm].
    - eapply iteration_order_NoDup; exact Hio.
    - intros ns p _ Hp. apply Hchild. exact Hp.
    - intros ns p r k t _ Hp Hr Hc. apply parse_sound in Hr as [Hg _].
      apply (contrib_has path bf ns p r Ef Hp Hg) in Hc as (nss & m & Hh).
      destruct (own_tasks path bf !! k) as [u|] eqn:Eu; [|reflexivity].
      apply own_tasks_lookup in Eu as (t0 & Ht0 & ->).
      pose proof (has_own path bf k t0 Ef Ht0) as Ho.
      destruct (Hun _ _ _ _ _ _ _ Hh Ho) as [Heq _]. discriminate.
    - intros ns1 p1 r1 t1 ns2 p2 r2 t2 k _ Hp1 Hr1 Hc1 _ Hp2 Hr2 Hc2.
      apply parse_sound in Hr1 as [Hg1 _]. apply parse_sound in Hr2 as [Hg2 _].
      apply (contrib_has path bf ns1 p1 r1 Ef Hp1 Hg1) in Hc1 as (nss1 & m1 & Hh1).
      apply (contrib_has path bf ns2 p2 r2 Ef Hp2 Hg2) in Hc2 as (nss2 & m2 & Hh2).
      destruct (Hun _ _ _ _ _ _ _ Hh1 Hh2) as [Heq _]. congruence.
    - rewrite Htm. eauto.
  Qed.
End Tree.

(** ** The content of included tasks *)
Lemma moved_refl it : moved [] it it.
Proof.
  induction it as [c|r|l|p|o sub IH] using run_item_rec'; try constructor.
  - destruct r. exact (moved_task [] _ _ _ _ _ _).
  - destruct o. constructor; [|left; auto]. induction IH; constructor; assumption.
Qed.

Lemma moved_prefix ns nss i j : moved nss i j -> moved (ns :: nss) i (prefix_item ns j).
Proof.
  revert j; induction i as [c|r|l|p|o sub IH] using run_item_rec'; intros j H; inversion H; subst; simpl; try constructor.
  - match goal with [H : Forall2 _ _ _ |- _] => rename H into HF end.
    clear -IH HF. revert IH. induction HF as [|x y xs ys Hxy _ IHF]; intros IH; simpl; constructor.
    + inversion IH; subst. auto.
    + inversion IH; subst. auto.
  - right. repeat split. discriminate.
Qed.

Lemma first_set_app {A} (l1 l2 : list (option A)) :
  first_set (l1 ++ l2) = match first_set l1 with Some a => Some a | None => first_set l2 end.
Proof. induction l1 as [|[a|] l1 IH]; simpl; auto. Qed.

Lemma merge_maps_get a b k : smap_get (merge_maps a b) !! k =
  match smap_get b !! k with Some v => Some v | None => smap_get a !! k end.
Proof.
  unfold merge_maps. simpl. rewrite lookup_union. destruct (smap_get b !! k), (smap_get a !! k); reflexivity.
Qed.

Lemma placed_own path m t : placed_names [] path m t (own_task path m t) /\ placed_settings [] t (own_task path m t).
Proof.
  split.
  - split; simpl; auto.
    + rewrite map_id. reflexivity.
    + destruct (t_alias t); reflexivity.
    + rewrite map_id. reflexivity.
    + induction (t_run t); constructor; [apply moved_refl|assumption].
  - split; simpl; intros.
    + destruct (smap_get (t_vars t) !! k); reflexivity.
    + destruct (smap_get (t_env t) !! k); reflexivity.
    + destruct (t_silent t); reflexivity.
    + destruct (t_output t); reflexivity.
    + destruct (nonempty (t_dir t)); reflexivity.
Qed.

Lemma placed_names_step ns nss f m t0 t r : placed_names nss f m t0 t ->
  placed_names (ns :: nss) f m t0 (include_task ns r (qualify nss m) t).
Proof.
  intros [H1 H2 (H3 & H4 & H5 & H6) H7 H8 H9 H10]. split; simpl; auto.
  - rewrite H7. unfold prefix_all. rewrite map_map. reflexivity.
  - rewrite H8. destruct (t_alias t0) as [|c a] eqn:Ea; [reflexivity|].
    unfold prefix_alias. destruct (qualify nss (c :: a)) as [|c' a'] eqn:Eq; [|reflexivity].
    exfalso. destruct nss as [|n' nss']; simpl in Eq; [discriminate|]. apply app_eq_nil in Eq as [_ Eq]. discriminate.
  - rewrite H9. unfold prefix_all. rewrite map_map. reflexivity.
  - clear -H10. induction H10; simpl; constructor; [apply moved_prefix; assumption|assumption].
Qed.

Lemma placed_settings_step ns via t0 t n path bf' : placed_settings via t0 t ->
  placed_settings (via ++ [bf']) t0 (include_task ns (file_result path bf') n t).
Proof.
  intros [H1 H2 H3 H4 H5]. split.
  - intros k. unfold include_task. cbn [t_vars pr_vars file_result].
    rewrite merge_maps_get, H1, map_app. simpl. destruct (smap_get (t_vars t0) !! k); [reflexivity|].
    rewrite first_set_app. destruct (first_set (map _ via)); [reflexivity|].
    simpl. destruct (smap_get (f_vars bf') !! k); reflexivity.
  - intros k. unfold include_task. cbn [t_env pr_env file_result].
    rewrite merge_maps_get, H2, map_app. simpl. destruct (smap_get (t_env t0) !! k); [reflexivity|].
    rewrite first_set_app. destruct (first_set (map _ via)); [reflexivity|].
    simpl. destruct (smap_get (f_env bf') !! k); reflexivity.
  - simpl. rewrite H3, map_app. simpl. destruct (t_silent t0); [reflexivity|]. rewrite first_set_app.
    destruct (first_set (map _ via)); [reflexivity|]. simpl. destruct (f_silent bf'); reflexivity.
  - simpl. rewrite H4, map_app. simpl. destruct (t_output t0); [reflexivity|]. rewrite first_set_app.
    destruct (first_set (map _ via)); [reflexivity|]. simpl. destruct (f_output bf'); reflexivity.
  - simpl. rewrite map_app. simpl in *. revert H5. destruct (nonempty (t_dir t0)) as [d|] eqn:Ed.
    + intros H5. destruct (t_dir t); [discriminate|]. exact H5.
    + rewrite first_set_app. destruct (first_set (map (fun b => nonempty (f_dir b)) via)).
      * intros H5. destruct (t_dir t); [discriminate|]. exact H5.
      * intros H5. destruct (t_dir t); [|discriminate]. simpl. destruct (f_dir bf'); reflexivity.
Qed.

Section Content.
  Context (fs : fsys).

  Lemma leads_det path nss via1 f1 bf1 via2 f2 bf2 :
    leads fs path nss via1 f1 bf1 -> leads fs path nss via2 f2 bf2 -> via1 = via2 /\ f1 = f2 /\ bf1 = bf2.
  Proof.
    intros H; revert via2 f2 bf2.
    induction H as [path bf Hf|path bf0 ns p path' bf' nss via f bf Hf Hp Hpt Hf' Hl IH]; intros via2 f2 bf2 H2.
    - inversion H2; subst. split; [reflexivity|]. split; [reflexivity|congruence].
    - inversion H2 as [|? bf02 ? p2 path2' bf2' ? via' ? ? Hf2 Hp2 Hpt2 Hf2' Hl2]; subst.
      assert (bf02 = bf0) as -> by congruence. assert (p2 = p) as -> by congruence.
      unfold points_to in Hpt, Hpt2. subst path' path2'. assert (bf2' = bf') as -> by congruence.
      destruct (IH _ _ _ Hl2) as (-> & -> & ->). auto.
  Qed.

  Lemma has_origin path nss m n t : has fs path nss m n t ->
    exists via f t0, origin fs path nss via f m t0 /\ placed_names nss f m t0 t /\ placed_settings via t0 t.
  Proof.
    induction 1 as [path bf m t Hf Ht|path bf ns p bf' nss m n t Hf Hp Hf' Hh IH].
    - exists [], path, t. split; [exists bf; split; [constructor; exact Hf|exact Ht]|]. apply placed_own.
    - destruct IH as (via & f & t0 & (bf1 & Hl & Ht0) & Hn & Hs). exists (via ++ [bf']), f, t0.
      split; [|split].
      + exists bf1. split; [|exact Ht0]. eapply leads_step; [exact Hf|exact Hp|reflexivity|exact Hf'|exact Hl].
      + rewrite (has_name fs _ _ _ _ _ Hh). apply placed_names_step. exact Hn.
      + apply placed_settings_step. exact Hs.
  Qed.

  Lemma origin_has path nss via f m t0 : origin fs path nss via f m t0 -> exists t, has fs path nss m (qualify nss m) t.
  Proof.
    intros (bf & Hl & Ht0).
    induction Hl as [path bf Hf|path bf0 ns p path' bf' nss via f bf Hf Hp Hpt Hf' Hl IH].
    - eexists. eapply has_own; eassumption.
    - destruct (IH Ht0) as [t Ht]. unfold points_to in Hpt. subst path'. eexists. rewrite qualify_cons.
      eapply has_inc; eassumption.
  Qed.

  Lemma has_placed path nss via f m n t0 t : has fs path nss m n t -> origin fs path nss via f m t0 ->
    n = qualify nss m /\ placed_names nss f m t0 t /\ placed_settings via t0 t.
  Proof.
    intros Hh (bf & Hl & Ht0). split; [eapply has_name; exact Hh|].
    apply has_origin in Hh as (via' & f' & t0' & (bf' & Hl' & Ht0') & Hn & Hs).
    destruct (leads_det _ _ _ _ _ _ _ _ Hl Hl') as (-> & -> & ->). assert (t0' = t0) as -> by congruence. auto.
  Qed.

  Lemma unique_no_collision path : unique_origin fs path <-> no_collision fs path.
  Proof.
    split.
    - intros Hu nss1 via1 f1 m1 t1 nss2 via2 f2 m2 t2 H1 H2 Heq.
      apply origin_has in H1 as [u1 H1]. apply origin_has in H2 as [u2 H2]. rewrite <- Heq in H2.
      eapply Hu; eassumption.
    - intros Hn n nss1 m1 t1 nss2 m2 t2 H1 H2.
      pose proof (has_name _ _ _ _ _ _ H1) as E1. pose proof (has_name _ _ _ _ _ _ H2) as E2.
      apply has_origin in H1 as (via1 & f1 & u1 & H1 & _). apply has_origin in H2 as (via2 & f2 & u2 & H2 & _).
      eapply Hn; [exact H1|exact H2|congruence].
  Qed.

  Context (orc : oracle) (Horc : oracle_ok orc).

  Lemma parse_file_iff path : (exists r, parse_file fs orc (2 + size fs) ∅ [] path = Ok r) <->
    readable_tree fs path /\ acyclic_tree fs path /\ no_collision fs path.
  Proof.
    split.
    - intros [r Hr]. apply parse_sound in Hr as (_ & Hu & Hrd & Ha); [|exact Horc].
      split; [exact Hrd|]. split; [|apply unique_no_collision; exact Hu].
      intros f Hf. apply Acc_no_tc. clear -Ha Hf. induction Hf as [|x y z Hxy _ IH]; [exact Ha|].
      apply IH. inversion Ha as [H]. apply H. exact Hxy.
    - intros (Hrd & Hac & Hn). apply parse_complete; auto.
      + apply not_elem_of_empty.
      + intros v Hv. apply elem_of_empty in Hv. contradiction.
      + rewrite difference_empty_L, size_dom. lia.
      + apply unique_no_collision; exact Hn.
  Qed.

  (** The fuel never runs out. *)
  Fixpoint is_fuel (e : perr) : bool := match e with PFuel => true | PInclude _ _ c => is_fuel c | _ => false end.

  Lemma add_tasks_err ns ip r order : forall tm e, add_tasks ns ip r order tm = Err e -> is_fuel e = false.
  Proof.
    induction order as [|n order IH]; intros tm e H; simpl in H; [discriminate|].
    destruct (pr_tasks r !! n); [|eapply IH; exact H]. destruct (tm_has _ _); [injection H as <-; reflexivity|].
    eapply IH; exact H.
  Qed.

  Lemma loop_err P nsp path incs order : (forall ns p e, P ns p = Err e -> is_fuel e = false) ->
    forall tm e, include_loop orc P nsp path incs order tm = Err e -> is_fuel e = false.
  Proof.
    intros HP. induction order as [|ns order IH]; intros tm e H; simpl in H; [discriminate|].
    destruct (incs !! ns) as [p|]; [|eapply IH; exact H]. unfold resolve_include in H.
    destruct (P (nsp ++ [ns]) _) as [r|e'] eqn:Er.
    - destruct (add_tasks _ _ _ _ _) as [tm'|e'] eqn:Ea; [eapply IH; exact H|]. injection H as <-. simpl.
      eapply add_tasks_err; exact Ea.
    - injection H as <-. simpl. eapply HP; exact Er.
  Qed.

  Lemma parse_no_fuel fuel : forall visited nsp path e, size (dom fs ∖ visited) + 1 < fuel ->
    parse_file fs orc fuel visited nsp path = Err e -> is_fuel e = false.
  Proof.
    induction fuel as [|fuel IH]; intros visited nsp path e Hsz H; [lia|]. simpl in H.
    destruct (decide (path ∈ visited)) as [|Hnv]; [injection H as <-; reflexivity|].
    destruct (fs !! path) as [[bf|]|] eqn:Ef; try (injection H as <-; reflexivity).
    destruct (include_loop _ _ _ _ _ _ _) as [tm|e'] eqn:El; [discriminate|]. injection H as <-.
    eapply loop_err; [|exact El]. intros ns p e. apply IH.
    assert (size (dom fs ∖ ({[path]} ∪ visited)) < size (dom fs ∖ visited)); [|lia].
    apply subset_size. split; [intros x; rewrite !elem_of_difference, elem_of_union; tauto|].
    intros Hs. assert (path ∈ dom fs ∖ visited) as Hin.
    { apply elem_of_difference. split; [apply elem_of_dom; eauto|exact Hnv]. }
    apply Hs, elem_of_difference in Hin as [_ Hin]. apply Hin, elem_of_union. left. apply elem_of_singleton. reflexivity.
  Qed.
End Content.

(** ** Exact moves *)
Lemma moved_exact nss i j : blocks_unset i -> moved nss i j -> moved_exactly nss i j.
Proof.
  revert j; induction i as [c|r|l|p|o sub IH] using run_item_rec'; intros j Hb H; inversion H; subst; try constructor.
  inversion Hb as [| | | |oo ll Hs Ho HF]; subst. simpl in Hs, Ho. subst.
  match goal with [H : _ \/ _ |- _] => destruct H as [[-> ->]|(_ & -> & ->)] end; constructor;
  match goal with [H : Forall2 _ _ _ |- _] => rename H into H2 end;
  clear -IH HF H2; revert IH HF; induction H2; intros IH HF; constructor; inversion IH; inversion HF; subst; auto.
Qed.

(** ** References of included tasks *)
Lemma moved_refers_item nss it : forall it' y, moved nss it it' ->
  (refers [it'] y <-> exists z, refers [it] z /\ y = qualify nss z).
Proof.
  assert (Hno : forall i y, match i with RTask _ | RPar _ _ => False | _ => True end -> ~ refers [i] y).
  { intros i y Hi H. inversion H; subst; try contradiction. match goal with [H : refers [] _ |- _] => inversion H end. }
  induction it as [c|r|l|p|o sub IH] using run_item_rec'; intros it' y Hm; inversion Hm; subst.
  1,3,4: split; [intros H; apply Hno in H; [contradiction|exact I]|intros (z & H & _); apply Hno in H; [contradiction|exact I]].
  - split.
    + intros H. inversion H; subst; [|match goal with [H : refers [] _ |- _] => inversion H end].
      exists n. split; [apply (refers_here (TaskRun ln n s o ps w))|reflexivity].
    + intros (z & H & ->). inversion H; subst; [|match goal with [H : refers [] _ |- _] => inversion H end].
      apply (refers_here (TaskRun ln (qualify nss _) s o ps w)).
  - assert (Hsub : forall y, refers items' y <-> exists z, refers sub z /\ y = qualify nss z).
    { match goal with [H : Forall2 _ _ _ |- _] => rename H into H2 end. clear -IH H2.
      induction H2 as [|x x' l l' Hx _ IHl]; intros y.
      - split; [intros H; inversion H|intros (z & H & _); inversion H].
      - inversion IH as [|? ? Hx0 IH0]; subst. specialize (IHl IH0).
        assert (Hcons : forall i l y, refers (i :: l) y <-> refers [i] y \/ refers l y).
        { intros i k v. split.
          - intros H. inversion H; subst; [left; constructor|left; constructor; assumption|right; assumption].
          - intros [H|H]; [|apply refers_later; exact H].
            inversion H; subst; [constructor|constructor; assumption|]. match goal with [H : refers [] _ |- _] => inversion H end. }
        rewrite Hcons, (Hx0 _ y Hx), IHl. split.
        + intros [(z & Hz & ->)|(z & Hz & ->)]; exists z; (split; [apply Hcons|reflexivity]); auto.
        + intros (z & Hz & ->). apply Hcons in Hz as [Hz|Hz]; [left|right]; eauto. }
    assert (Hpar : forall o l y, refers [RPar o l] y <-> refers l y).
    { intros o1 l y1. split.
      - intros H. inversion H; subst; [assumption|]. match goal with [H : refers [] _ |- _] => inversion H end.
      - intros H. apply refers_inside. exact H. }
    rewrite Hpar, Hsub. split; intros (z & Hz & ->); exists z; (split; [|reflexivity]); [apply (proj2 (Hpar _ _ _)); exact Hz|exact (proj1 (Hpar _ _ _) Hz)].
Qed.

Lemma moved_refers nss l l' : Forall2 (moved nss) l l' ->
  forall y, refers l' y <-> exists z, refers l z /\ y = qualify nss z.
Proof.
  induction 1 as [|x x' l l' Hx _ IH]; intros y.
  - split; [intros H; inversion H|intros (z & H & _); inversion H].
  - assert (Hcons : forall i l y, refers (i :: l) y <-> refers [i] y \/ refers l y).
    { intros i k v. split.
      - intros H. inversion H; subst; [left; constructor|left; constructor; assumption|right; assumption].
      - intros [H|H]; [|apply refers_later; exact H].
        inversion H; subst; [constructor|constructor; assumption|]. match goal with [H : refers [] _ |- _] => inversion H end. }
    rewrite Hcons, (moved_refers_item _ _ _ y Hx), IH. split.
    + intros [(z & Hz & ->)|(z & Hz & ->)]; exists z; (split; [apply Hcons|reflexivity]); auto.
    + intros (z & Hz & ->). apply Hcons in Hz as [Hz|Hz]; [left|right]; eauto.
Qed.

(** What a task names: dependencies and references. *)
Definition names (t : task) (n : str) : Prop := n ∈ t_deps t \/ refers (t_run t) n.

Lemma placed_names_refs nss f m t0 t : placed_names nss f m t0 t ->
  forall y, names t y <-> exists z, names t0 z /\ y = qualify nss z.
Proof.
  intros [_ _ _ Hd _ _ Hr] y. unfold names. rewrite Hd, (moved_refers _ _ _ Hr y). split.
  - intros [H|(z & Hz & ->)]; [|eauto]. apply elem_of_list_In in H; apply in_map_iff in H as (z & <- & Hz).
    exists z. split; [left; apply elem_of_list_In; exact Hz|reflexivity].
  - intros (z & [Hz|Hz] & ->); [left|right; eauto]. apply elem_of_list_In. apply List.in_map. apply elem_of_list_In. exact Hz.
Qed.

Lemma qualify_app nss1 nss2 m : qualify (nss1 ++ nss2) m = qualify nss1 (qualify nss2 m).
Proof. induction nss1 as [|ns nss1 IH]; simpl; [reflexivity|]. rewrite IH. reflexivity. Qed.

Lemma qualify_inj nss m1 m2 : qualify nss m1 = qualify nss m2 -> m1 = m2.
Proof. induction nss as [|ns nss IH]; [auto|]. rewrite !qualify_cons. intros H. apply IH. eapply prefixed_inj; exact H. Qed.

Lemma leads_app fs path nss1 via1 g bg : leads fs path nss1 via1 g bg ->
  forall nss2 via2 f bf, leads fs g nss2 via2 f bf -> leads fs path (nss1 ++ nss2) (via2 ++ via1) f bf.
Proof.
  induction 1 as [path bf0 Hf|path bf0 ns p path' bf' nss via f bf Hf Hp Hpt Hf' Hl IH]; intros nss2 via2 f2 bf2 H2.
  - simpl. rewrite app_nil_r. exact H2.
  - simpl. rewrite (assoc_L app). eapply leads_step; eauto.
Qed.

Lemma leads_end fs path nss via f bf : leads fs path nss via f bf -> fs !! f = Some (Some bf).
Proof. induction 1; assumption. Qed.

(** ** Where a circular-include error comes from *)
Fixpoint cause (e : perr) : perr := match e with PInclude _ _ c => cause c | _ => e end.

Section Circular.
  Context (fs : fsys) (orc : oracle).

  Lemma add_tasks_cause ns ip r order : forall tm e p ch, add_tasks ns ip r order tm = Err e -> cause e <> PCircular p ch.
  Proof.
    induction order as [|n order IH]; intros tm e p ch H; simpl in H; [discriminate|].
    destruct (pr_tasks r !! n); [|eapply IH; exact H]. destruct (tm_has _ _); [injection H as <-; discriminate|].
    eapply IH; exact H.
  Qed.

  Lemma loop_cause P nsp path incs order : forall tm e p ch,
    include_loop orc P nsp path incs order tm = Err e -> cause e = PCircular p ch ->
    exists ns ip e', incs !! ns = Some ip /\ P (nsp ++ [ns]) (include_path (dir path) ip) = Err e' /\ cause e' = PCircular p ch.
  Proof.
    induction order as [|ns order IH]; intros tm e p ch H Hc; simpl in H; [discriminate|].
    destruct (incs !! ns) as [ip|] eqn:Ei; [|eapply IH; eassumption]. unfold resolve_include in H.
    destruct (P (nsp ++ [ns]) _) as [r|e'] eqn:Er.
    - destruct (add_tasks _ _ _ _ _) as [tm'|e'] eqn:Ea; [eapply IH; eassumption|]. injection H as <-. simpl in Hc.
      exfalso. eapply add_tasks_cause; eassumption.
    - injection H as <-. eauto 10.
  Qed.

  Lemma circular_chain fuel : forall open visited nsp path e p ch,
    NoDup open -> (forall f, f ∈ visited <-> f ∈ open) -> linked (includes fs) (open ++ [path]) ->
    parse_file fs orc fuel visited nsp path = Err e -> cause e = PCircular p ch ->
    exists l, NoDup (open ++ l) /\ linked (includes fs) ((open ++ l) ++ [p]) /\ p ∈ open ++ l /\
      hd p l = path /\ ch = sort_strs (map base (open ++ l)) ++ [base p].
  Proof.
    induction fuel as [|fuel IH]; intros open visited nsp path e p ch Hnd Hvis Hl H Hc; simpl in H;
      [injection H as <-; discriminate|].
    destruct (decide (path ∈ visited)) as [Hin|Hnin].
    - injection H as <-. simpl in Hc. injection Hc as <- <-. exists []. rewrite app_nil_r.
      split; [exact Hnd|]. split; [exact Hl|]. split; [apply Hvis; exact Hin|]. split; [reflexivity|].
      unfold chain_from_visited. f_equal. apply sort_strs_unique. apply Permutation_map.
      apply NoDup_Permutation; [apply NoDup_elements|exact Hnd|]. intros x. rewrite elem_of_elements. apply Hvis.
    - destruct (fs !! path) as [[bf|]|] eqn:Ef; try (injection H as <-; discriminate).
      destruct (include_loop _ _ _ _ _ _ _) as [tm|e'] eqn:El; [discriminate|]. injection H as <-.
      destruct (loop_cause _ _ _ _ _ _ _ _ _ El Hc) as (ns & ip & e2 & Hi & Hp & Hc2).
      eapply (IH (open ++ [path])) in Hp; [|..|exact Hc2].
      + destruct Hp as (l & L1 & L2 & L3 & _ & L5). exists (path :: l).
        replace (open ++ path :: l) with ((open ++ [path]) ++ l) by (rewrite <- (assoc_L app); reflexivity).
        simpl. auto.
      + apply NoDup_app. split; [exact Hnd|]. split; [|apply NoDup_singleton].
        intros x Hx Hx2. apply elem_of_list_singleton in Hx2. subst x. apply Hnin, Hvis. exact Hx.
      + intros f. rewrite elem_of_union, elem_of_singleton, elem_of_app, elem_of_list_singleton, Hvis. tauto.
      + apply linked_snoc; [exact Hl|]. intros y Hy. rewrite last_snoc in Hy. injection Hy as <-.
        exists bf, ns, ip. split; [exact Ef|]. split; [exact Hi|reflexivity].
  Qed.
End Circular.
