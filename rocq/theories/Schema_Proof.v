(** A document that is valid against the schema, as the decoder sees it. *)
From Verif Require Import Base Types_Model Include_Model Doc_Model Doc_Spec Doc_Proof Doc_Item Doc_Tree Doc_File Schema_Model.

(** The schema of a property. *)
Fixpoint prop_at (k : str) (ps : list (str * jschema)) : option jschema :=
  match ps with
  | [] => None
  | (k', s) :: r => if decide (k' = k) then Some s else prop_at k r
  end.

Lemma valid_object props req extra names n l :
  valid (SObject props req extra names n) (JObj l) = true <->
  Forall (fun kv => opt_pattern names kv.1 = true /\
    match prop_at kv.1 props with Some s => valid s kv.2 = true | None => match extra with Some s => valid s kv.2 = true | None => False end end) l /\
  Forall (fun k => k ∈ l.*1) req /\ n <= length l.
Proof.
  cbn [valid]. rewrite !andb_true_iff, !forallb_forall, Nat.leb_le, !Forall_forall.
  assert (E : forall k j, ((fix look (ps : list (str * jschema)) : bool :=
       match ps with
       | [] => match extra with Some s => valid s j | None => false end
       | (k', s) :: r => if decide (k' = k) then valid s j else look r
       end) props) = true <-> match prop_at k props with Some s => valid s j = true | None => match extra with Some s => valid s j = true | None => False end end).
  { intros k j. induction props as [|[k' s] r IH]; cbn [prop_at]; [destruct extra; [tauto|split; [discriminate|intros []]]|]. destruct (decide (k' = k)); [tauto|exact IH]. }
  split.
  - intros ((H1 & H2) & H3). split; [|split; [|exact H3]].
    + intros [k j] Hin. apply elem_of_list_In in Hin. specialize (H1 _ Hin). apply andb_true_iff in H1 as [? H1]. split; [assumption|]. apply E. exact H1.
    + intros k Hin. apply elem_of_list_In in Hin. specialize (H2 _ Hin). apply bool_decide_eq_true in H2. exact H2.
  - intros (H1 & H2 & H3). split; [split|exact H3].
    + intros [k j] Hin. apply elem_of_list_In in Hin. destruct (H1 _ Hin) as [? H]. apply andb_true_iff. split; [assumption|]. apply E. exact H.
    + intros k Hin. apply elem_of_list_In in Hin. apply bool_decide_eq_true. auto.
Qed.

Lemma valid_one_of l j : valid (SOneOf l) j = true -> exists s, s ∈ l /\ valid s j = true.
Proof.
  cbn [valid]. intros H. apply Nat.eqb_eq in H. destruct (filter _ _) as [|b r] eqn:E; [discriminate|].
  assert (Hb : b ∈ filter (fun b : bool => b) (map (fun s => valid s j) l)) by (rewrite E; apply elem_of_list_here).
  apply elem_of_list_filter in Hb as [Hb Hin]. apply elem_of_list_fmap in Hin as (s & -> & Hs). exists s. split; [exact Hs|]. apply Is_true_true. exact Hb.
Qed.

Section Fits.
  Context (Y : yaml) (sc : str -> str -> json) (Hag : agrees Y sc).

  Notation small := (fun z => in_int64 z = true).
  Definition fits (s : jschema) (n : node) : Prop := exists j, shows sc small False n j /\ valid s j = true.

  Lemma fits_scalar n j : shows sc small False n j -> match j with JArr _ | JObj _ => False | _ => True end ->
    exists l t v, n = YScalar l t v /\ j = sc t v /\ forall z, sc t v = JInt z -> in_int64 z = true.
  Proof. intros H. inversion H; subst; intros Hj; try destruct Hj; [eauto 6|contradiction]. Qed.

  Lemma fits_string m enum pat n : fits (SString m enum pat) n ->
    exists l t v, n = YScalar l t v /\ sc t v = JStr v /\ m <= length v /\ match enum with Some e => v ∈ e | None => True end /\ opt_pattern pat v = true.
  Proof.
    intros (j & Hs & Hv). destruct j; try discriminate Hv. apply fits_scalar in Hs as (l & t & v & -> & Ej & _); [|exact I].
    symmetry in Ej. pose proof (ag_str _ _ Hag _ _ _ Ej) as ->. cbn [valid] in Hv. rewrite !andb_true_iff, Nat.leb_le in Hv. destruct Hv as [[H1 H2] H3].
    exists l, t, v. split; [reflexivity|]. split; [exact Ej|]. split; [exact H1|]. split; [|exact H3]. destruct enum; [|exact I]. apply bool_decide_eq_true in H2. exact H2.
  Qed.
  Lemma fits_text m enum pat n : fits (SString m enum pat) n -> scalar n.
  Proof. intros H. apply fits_string in H as (? & ? & ? & -> & _). exact I. Qed.
  Lemma fits_bool n : fits SBool n -> bool_ok Y n.
  Proof.
    intros (j & Hs & Hv). destruct j; try discriminate Hv. apply fits_scalar in Hs as (l & t & v & -> & Ej & _); [|exact I].
    split; [exact I|]. exists b. apply (ag_bool _ _ Hag). congruence.
  Qed.
  Lemma fits_int lo n : fits (SInteger lo) n -> exists z, y_int Y n = Some z /\ match lo with Some m => (m <= z)%Z | None => True end.
  Proof.
    intros (j & Hs & Hv). destruct j; try discriminate Hv. apply fits_scalar in Hs as (l & t & v & -> & Ej & Hz); [|exact I].
    exists z. split; [apply (ag_int _ _ Hag); [congruence|apply Hz; congruence]|]. cbn [valid] in Hv. destruct lo; [apply Z.leb_le; exact Hv|exact I].
  Qed.
  Lemma fits_array s m u n : fits (SArray s m u) n -> exists l ns, n = YSeq l ns /\ Forall (fits s) ns /\ m <= length ns.
  Proof.
    intros (j & Hs & Hv). destruct j; try discriminate Hv. inversion Hs as [l' t v Hz E1 E2|l' ns js HF| |]; subst; [|clear Hs|contradiction].
    { pose proof (ag_scalar _ _ Hag t v) as Ha. rewrite E2 in Ha. contradiction. }
    cbn [valid] in Hv. rewrite !andb_true_iff, Nat.leb_le in Hv. destruct Hv as [[H1 H2] _].
    exists l', ns. split; [reflexivity|]. split; [|rewrite (Forall2_length _ _ _ HF); exact H2]. clear H2. induction HF as [|n j ns js Hn HF IH]; [constructor|].
    cbn [forallb] in H1. apply andb_true_iff in H1 as [H1 H2]. constructor; [exists j; auto|auto].
  Qed.
  Lemma fits_object props req extra names m n : fits (SObject props req extra names m) n -> exists l c, n = YMap l c /\
    NoDup (map (fun kv => value_of kv.1) c) /\
    Forall (fun kv => opt_pattern names (value_of kv.1) = true /\
      match prop_at (value_of kv.1) props with Some s => fits s kv.2 | None => match extra with Some s => fits s kv.2 | None => False end end) c /\
    Forall (fun k => exists kv, kv ∈ c /\ value_of kv.1 = k) req.
  Proof.
    intros (j & Hs & Hv). destruct j; try discriminate Hv. inversion Hs as [l' t v Hz E1 E2| |l' c js HN HF|]; subst; [| |contradiction].
    { pose proof (ag_scalar _ _ Hag t v) as Ha. rewrite E2 in Ha. contradiction. }
    apply valid_object in Hv as (H1 & H2 & _). exists l', c. split; [reflexivity|]. split; [exact HN|]. clear Hs HN. split.
    - clear H2. induction HF as [|[k v] [k' j] c js [Hk Hn] HF IH]; [constructor|]. cbn [fst snd] in *. subst k'. apply Forall_cons in H1 as [[Hp H1] H2].
      constructor; [|auto]. cbn [fst snd] in *. split; [exact Hp|]. destruct (prop_at (value_of k) props); [exists j; auto|]. destruct extra; [exists j; auto|exact H1].
    - eapply Forall_impl; [exact H2|]. intros x Hx. clear H1 H2. induction HF as [|[k v] [k' j] c js [Hk Hn] HF IH]; [apply elem_of_nil in Hx; contradiction|].
      cbn [fst snd] in *. apply elem_of_cons in Hx as [->|Hx].
      + exists (k, v). split; [apply elem_of_list_here|cbn [fst]; congruence].
      + destruct (IH Hx) as (kv & ? & ?). exists kv. split; [apply elem_of_list_further|]; assumption.
  Qed.
  Lemma fits_one_of ss n : fits (SOneOf ss) n -> exists s, s ∈ ss /\ fits s n.
  Proof. intros (j & Hs & Hv). apply valid_one_of in Hv as (s & ? & ?). exists s. split; [assumption|]. exists j. auto. Qed.

  (** Lists of strings. *)
  Lemma fits_strs m enum pat k u n : fits (SArray (SString m enum pat) k u) n ->
    exists ss, y_strs Y n = Some ss /\ k <= length ss /\ Forall (fun v => m <= length v /\ match enum with Some e => v ∈ e | None => True end) ss.
  Proof.
    intros H. apply fits_array in H as (l & ns & -> & HF & Hk). exists (map value_of ns). rewrite map_length. split; [|split; [exact Hk|]].
    - apply (ag_strs _ _ Hag). eapply Forall_impl; [exact HF|]. intros n H. apply fits_string in H as (l' & t & v & -> & E & _). eauto.
    - apply Forall_fmap. eapply Forall_impl; [exact HF|]. intros n H. apply fits_string in H as (l' & t & v & -> & E & H1 & H2 & _). simpl. auto.
  Qed.
  Lemma fits_platforms n : fits s_platforms n -> platforms_ok Y n.
  Proof. intros H. apply fits_strs in H as (ss & E & _ & HF). exists ss. split; [exact E|]. eapply Forall_impl; [exact HF|]. intros v [_ ?]. assumption. Qed.
  Lemma fits_env names n : fits (SObject [] [] (Some s_text) names 0) n -> str_map_ok n.
  Proof. intros H. apply fits_object in H as (l & c & -> & _ & HF & _). exists l, c. split; [reflexivity|]. eapply Forall_impl; [exact HF|]. intros kv [_ H]. eapply fits_text. exact H. Qed.

  (** What an object with a closed list of properties says about its entries. *)
  Definition entry_fits (props : list (str * jschema)) (k : str) (v : node) : Prop :=
    match prop_at k props with Some s => fits s v | None => False end.
  Lemma fits_closed props req names m n : fits (SObject props req None names m) n -> exists l c, n = YMap l c /\
    NoDup (map (fun kv => value_of kv.1) c) /\ Forall (fun kv => entry_fits props (value_of kv.1) kv.2) c /\
    Forall (fun k => exists kv, kv ∈ c /\ value_of kv.1 = k) req.
  Proof.
    intros H. apply fits_object in H as (l & c & -> & HN & HF & Hr). exists l, c. split; [reflexivity|]. split; [exact HN|]. split; [|exact Hr].
    eapply Forall_impl; [exact HF|]. intros kv [_ H]. unfold entry_fits. destruct (prop_at _ _); exact H.
  Qed.
  Lemma entry_known props (k : string) v s : prop_at (lit k) props = Some s -> entry_fits props (lit k) v -> fits s v.
  Proof. unfold entry_fits. intros ->. auto. Qed.
  Lemma entry_unknown props k v : prop_at k props = None -> entry_fits props k v -> False.
  Proof. unfold entry_fits. intros ->. auto. Qed.

  (** The entry under a key. *)
  Lemma field_in c k v : field c k = Some v -> exists kv, kv ∈ c /\ value_of kv.1 = lit k /\ kv.2 = v.
  Proof.
    unfold field, field_at, under. intros H. apply last_Some_elem_of in H. apply elem_of_list_fmap in H as (kv & -> & H).
    apply elem_of_list_filter in H as [? ?]. eauto.
  Qed.
  Lemma has_field_some c k : (exists kv, kv ∈ c /\ value_of kv.1 = lit k) -> exists v, field c k = Some v.
  Proof.
    intros (kv & Hin & E). unfold field, field_at, under. destruct (last _) eqn:El; [eauto|]. apply last_None in El. apply fmap_nil_inv in El.
    assert (Hf : kv ∈ filter (fun kv => value_of kv.1 = lit k) c) by (apply elem_of_list_filter; auto). rewrite El in Hf. apply elem_of_nil in Hf. contradiction.
  Qed.
  Lemma field_fits props c k v : Forall (fun kv => entry_fits props (value_of kv.1) kv.2) c -> field c k = Some v -> entry_fits props (lit k) v.
  Proof. intros HF H. apply field_in in H as (kv & Hin & E & <-). rewrite Forall_forall in HF. rewrite <- E. auto. Qed.
End Fits.
