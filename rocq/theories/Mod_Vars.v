(** The variables of a task that is included are resolved together with those of its file, and not
    on top of them. The values are the same if the file's are not made from redefined ones. *)
From Verif Require Import Base Types_Model Interp_Model Interp_Spec Interp_Proof Vars_Proof Mod_Spec.

Lemma refs_named s ps n : reads s ps -> n ∈ refs_of ps -> exists a t b, s = a ++ t ++ b /\ ref_text t n.
Proof.
  induction 1 as [|s ps H IH|t m s ps Ht H IH|c s ps He Hr H IH]; cbn [refs_of]; intros Hn.
  - inversion Hn.
  - destruct (IH Hn) as (a & t & b & -> & Ht). exists (lit "$${{" ++ a), t, b. rewrite <- app_assoc. auto.
  - apply elem_of_cons in Hn as [->|Hn]; [exists [], t, s; auto|]. destruct (IH Hn) as (a & t' & b & -> & Ht'). exists (t ++ a), t', b. rewrite <- app_assoc. auto.
  - destruct (IH Hn) as (a & t & b & -> & Ht). exists (c :: a), t, b. auto.
Qed.

Section Merged.
  Context (getenv : str -> str) (fv vs G : gmap str str).
  Context (HG : forall n v, G !! n = Some v <-> Val getenv fv ∅ n v).
  Context (Hfv : mention_acyclic fv).
  Context (Hall : forall n, is_Some (fv !! n) -> exists v, Val getenv fv ∅ n v).
  Context (Hind : forall x s n, fv !! x = Some s -> vs !! x = None -> names_var s n -> vs !! n = None).
  Notation B := (vs ∪ fv).

  Lemma file_val n v : Val getenv fv ∅ n v -> vs !! n = None -> Val getenv B ∅ n v.
  Proof.
    revert n v. apply (Val_strong_ind getenv fv ∅ (fun n v => vs !! n = None -> Val getenv B ∅ n v)).
    - intros n raw ps v E Hr He Hn. eapply Val_block; [rewrite lookup_union_r by exact Hn; exact E|exact Hr|].
      eapply expands_impl; [|exact He]. intros m w Hm He' [_ IH]. apply IH. apply (Hind n raw); [exact E|exact Hn|].
      split; [eapply refs_named; eassumption|exact He'].
    - intros n v _ E. rewrite lookup_empty in E. discriminate E.
  Qed.
  Lemma file_val' n v : Val getenv B ∅ n v -> vs !! n = None -> Val getenv fv ∅ n v.
  Proof.
    revert n v. apply (Val_strong_ind getenv B ∅ (fun n v => vs !! n = None -> Val getenv fv ∅ n v)).
    - intros n raw ps v E Hr He Hn. rewrite lookup_union_r in E by exact Hn. eapply Val_block; [exact E|exact Hr|].
      eapply expands_impl; [|exact He]. intros m w Hm He' [_ IH]. apply IH. apply (Hind n raw); [exact E|exact Hn|].
      split; [eapply refs_named; eassumption|exact He'].
    - intros n v _ E. rewrite lookup_empty in E. discriminate E.
  Qed.

  Lemma merged_val n v : Val getenv vs G n v <-> Val getenv B ∅ n v.
  Proof.
    split.
    - revert n v. apply (Val_strong_ind getenv vs G).
      + intros n raw ps v E Hr He. eapply Val_block; [apply lookup_union_Some_l; exact E|exact Hr|].
        eapply expands_impl; [|exact He]. intros m w _ _ [_ IH]. exact IH.
      + intros n v Hn E. apply file_val; [apply HG; exact E|exact Hn].
    - revert n v. apply (Val_strong_ind getenv B ∅).
      + intros n raw ps v E Hr He. destruct (vs !! n) as [s|] eqn:En.
        * rewrite (lookup_union_Some_l _ _ _ _ En) in E. injection E as ->. eapply Val_block; [exact En|exact Hr|].
          eapply expands_impl; [|exact He]. intros m w _ _ [_ IH]. exact IH.
        * apply Val_parent; [exact En|]. apply HG. apply file_val'; [|exact En]. eapply Val_block; [exact E|exact Hr|].
          eapply expands_impl; [|exact He]. intros m w _ _ [IH _]. exact IH.
      + intros n v _ E. rewrite lookup_empty in E. discriminate E.
  Qed.

  Lemma merged_acyclic : mention_acyclic vs <-> mention_acyclic B.
  Proof.
    split.
    - intros Hac n Hn.
      (* what is mentioned outside of [vs] stays there *)
      assert (Hout : forall a b, mentions B a b -> vs !! a = None -> vs !! b = None /\ mentions fv a b).
      { intros a b (raw & x & t & y & E & -> & Ht & He & Hb) Ha. rewrite lookup_union_r in E by exact Ha.
        assert (Hbn : vs !! b = None) by (apply (Hind a _ b E Ha); split; [eauto 6|exact He]). split; [exact Hbn|].
        exists (x ++ t ++ y), x, t, y. rewrite lookup_union_r in Hb by exact Hbn. auto. }
      assert (Hin : forall a b, mentions B a b -> is_Some (vs !! a) -> is_Some (vs !! b) -> mentions vs a b).
      { intros a b (raw & x & t & y & E & -> & Ht & He & Hb) [s Ha] Hb'. rewrite (lookup_union_Some_l _ _ _ _ Ha) in E. injection E as ->.
        exists (x ++ t ++ y), x, t, y. auto. }
      assert (Houts : forall a b, tc (mentions B) a b -> vs !! a = None -> vs !! b = None /\ tc (mentions fv) a b).
      { intros a b H. induction H as [a b H|a b c H H' IH]; intros Ha; destruct (Hout _ _ H Ha) as [Hb H1].
        - split; [exact Hb|apply tc_once; exact H1].
        - destruct (IH Hb) as [Hc H2]. split; [exact Hc|eapply tc_l; eassumption]. }
      assert (Hins : forall a b, tc (mentions B) a b -> is_Some (vs !! b) -> is_Some (vs !! a) /\ tc (mentions vs) a b).
      { intros a b H. induction H as [a b H|a b c H H' IH]; intros Hb.
        - destruct (vs !! a) eqn:Ea; [split; [eauto|]; apply tc_once; apply Hin; [exact H|eauto|exact Hb]|].
          destruct (Hout _ _ H Ea) as [Hn' _]. rewrite Hn' in Hb. destruct Hb; discriminate.
        - destruct (IH Hb) as [Hb' H2]. destruct (vs !! a) eqn:Ea.
          + split; [eauto|]. eapply tc_l; [apply Hin; [exact H|eauto|exact Hb']|exact H2].
          + destruct (Hout _ _ H Ea) as [Hn' _]. rewrite Hn' in Hb'. destruct Hb'; discriminate. }
      destruct (vs !! n) as [s|] eqn:En.
      + destruct (Hins n n Hn) as [_ H]; [eauto|]. exact (Hac n H).
      + destruct (Houts n n Hn En) as [_ H]. exact (Hfv n H).
    - intros Hac n Hn. apply (Hac n). clear -Hn. assert (Hin : forall a b, mentions vs a b -> mentions B a b).
      { intros a b (raw & x & t & y & E & -> & Ht & He & [s Hb]). exists (x ++ t ++ y), x, t, y.
        split; [apply lookup_union_Some_l; exact E|]. split; [reflexivity|]. split; [exact Ht|]. split; [exact He|]. exists s. apply lookup_union_Some_l. exact Hb. }
      assert (Hins : forall a b, tc (mentions vs) a b -> tc (mentions B) a b); [|exact (Hins n n Hn)].
      intros a b H. induction H as [a b H|a b c H H' IH]; [apply tc_once; auto|eapply tc_l; [apply Hin; exact H|exact IH]].
  Qed.

  Lemma merged_all : (forall n, is_Some (vs !! n) -> exists v, Val getenv vs G n v) <-> (forall n, is_Some (B !! n) -> exists v, Val getenv B ∅ n v).
  Proof.
    split; intros H n Hn.
    - destruct (vs !! n) as [s|] eqn:En.
      + destruct (H n) as [v Hv]; [eauto|]. exists v. apply merged_val. exact Hv.
      + rewrite lookup_union_r in Hn by exact En. destruct (Hall n Hn) as [v Hv]. exists v. apply file_val; assumption.
    - destruct Hn as [s Hn]. destruct (H n) as [v Hv]; [exists s; apply lookup_union_Some_l; exact Hn|]. exists v. apply merged_val. exact Hv.
  Qed.
End Merged.

(** On top of the file's values, or together with them: the same result. *)
Lemma resolve_same getenv fv vs G o0 o1 o2 m :
  (forall x, nul_free (getenv x)) -> all_nul_free fv -> all_nul_free vs ->
  (forall x s n, fv !! x = Some s -> vs !! x = None -> names_var s n -> vs !! n = None) ->
  iteration_order fv o0 -> iteration_order vs o1 -> iteration_order (vs ∪ fv) o2 ->
  resolve_vars getenv (Some fv) None o0 = Ok G ->
  resolve_vars getenv (Some vs) (Some G) o1 = Ok m <-> resolve_vars getenv (Some (vs ∪ fv)) (Some ∅) o2 = Ok m.
Proof.
  intros Hge Hnf Hnv Hind Ho0 Ho1 Ho2 H0.
  assert (Hne : all_nul_free (default ∅ None : gmap str str)) by (intros n v H; cbn in H; rewrite lookup_empty in H; discriminate H).
  apply (resolve_vars_iff getenv fv None o0 G Hge Hnf Hne Ho0) in H0 as (Hac & Hall & HG). cbn [default] in Hall, HG.
  assert (HGn : all_nul_free G).
  { intros n v Hn. apply HG in Hn. eapply Val_nul_free; [exact Hge|exact Hnf|exact Hne|exact Hn]. }
  assert (HBn : all_nul_free (vs ∪ fv)).
  { intros n v Hn. apply lookup_union_Some_raw in Hn as [Hn|[_ Hn]]; [eapply Hnv; exact Hn|eapply Hnf; exact Hn]. }
  rewrite (resolve_vars_iff getenv vs (Some G) o1 m Hge Hnv HGn Ho1), (resolve_vars_iff getenv (vs ∪ fv) (Some ∅) o2 m Hge HBn Hne Ho2).
  cbn [default]. rewrite (merged_acyclic fv vs Hac Hind), (merged_all getenv fv vs G HG Hall Hind).
  pose proof (merged_val getenv fv vs G HG Hind) as Hv.
  split; intros (H1 & H2 & H3); (split; [exact H1|]); (split; [exact H2|]); intros n v; rewrite H3; [apply Hv|symmetry; apply Hv].
Qed.
