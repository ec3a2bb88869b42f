(** Properties of the update check. *)
From Verif Require Import Base Update_Model Update_Proof.
Local Open Scope nat_scope.

(** ** C45: the file of the record *)

(** The disk before: the cache holds [old], whole and on disk, or is absent. *)
Definition at_rest (old : option str) (k : disk) : Prop :=
  dk_procs k = ∅ /\ dk_past k = [] /\ dk_started k = [] /\
  match old with
  | Some b => exists f, dk_dir k !! cache_name = Some f /\ dk_data k !! f = Some b /\ f ∈ dk_synced k
  | None => dk_dir k !! cache_name = None
  end.

Lemma at_rest_inv old k : at_rest old k -> inv old k.
Proof.
  intros (H1 & H2 & H3 & H4). constructor.
  - intros f Hf. unfold links in Hf. rewrite H2 in Hf. apply elem_of_list_singleton in Hf. destruct old as [b|]; [|congruence].
    destruct H4 as (g & G1 & G2 & G3). assert (f = g) by congruence. subst g. split; [exact G3|]. exists b. split; [exact G2|left; reflexivity].
  - intros p d ph Hp. rewrite H1, lookup_empty in Hp. discriminate Hp.
  - intros p q d e ph ph' t t' f f' _ Hp. rewrite H1, lookup_empty in Hp. discriminate Hp.
Qed.

(** Whatever any number of savers do, whichever calls fail, whoever is killed and
    whenever power is lost: the cache reads as the old record or one of the new ones,
    whole, or is absent. *)
Theorem C45_whole w old k k' : at_rest old k -> rtc (sstep w) k k' ->
  read_cache k' = None \/ read_cache k' = old \/ exists b, b ∈ dk_started k' /\ read_cache k' = Some b.
Proof.
  intros H0 Hs. pose proof (steps_inv _ _ _ _ Hs (at_rest_inv _ _ H0)) as Hi. destruct (read_cache k') as [b|] eqn:E; [right|left; reflexivity].
  destruct (inv_read _ _ Hi b E) as [-> | Hb]; [left; reflexivity|right; exists b; auto].
Qed.
Print Assumptions C45_whole.

(** Off Windows a record that was there is never lost. *)
Theorem C45_old_or_new b0 k k' : at_rest (Some b0) k -> rtc (sstep false) k k' ->
  read_cache k' = Some b0 \/ exists b, b ∈ dk_started k' /\ read_cache k' = Some b.
Proof.
  intros H0 Hs. pose proof (steps_inv _ _ _ _ Hs (at_rest_inv _ _ H0)) as Hi.
  assert (Hk : None ∉ links k' /\ forall p d t f, dk_procs k' !! p <> Some (d, Removing t f)).
  { pose proof (at_rest_inv _ _ H0) as Hi0. assert (Hk0 : None ∉ links k /\ forall p d t f, dk_procs k !! p <> Some (d, Removing t f)).
    { destruct H0 as (H1 & H2 & _ & f & H4 & _). split; [unfold links; rewrite H2, H4; intros H; apply elem_of_list_singleton in H; discriminate H|].
      intros p d t g. rewrite H1, lookup_empty. discriminate. }
    clear Hi H0. revert Hk0 Hi0. induction Hs as [|k1 k2 k3 Hst _ IH]; [auto|]. intros [K1 K2] Hi0. apply IH; [|exact (step_inv _ _ _ _ Hst Hi0)].
    apply (step_kept _ _ Hst K2 K1). intros p d ph E. destruct (inv_procs _ _ Hi0 p d ph E) as (_ & G2 & G3).
    destruct ph; simpl in *; try exact I; try exact G2; exact (proj1 G3). }
  destruct Hk as [Hk _]. destruct (dk_dir k' !! cache_name) as [f|] eqn:E; [|destruct Hk; unfold links; rewrite E; constructor].
  destruct (inv_present _ _ _ Hi E) as [b Hb]. rewrite Hb. destruct (inv_read _ _ Hi b Hb) as [Ho | Hc]; [left; congruence|right; exists b; auto].
Qed.
Print Assumptions C45_old_or_new.

(** What is loaded then: the old record's reading or exactly a record that was saved. *)
Theorem C45_load decode encode b0 recs k k' now : (forall r, r ∈ recs -> decode (encode r) = Some r) ->
  at_rest (Some b0) k -> rtc (sstep false) k k' -> dk_started k' = map encode recs ->
  forall c, load_cache decode (read_cache k') now = Some c -> load_cache decode (Some b0) now = Some c \/ c ∈ recs.
Proof.
  intros Hcodec H0 Hs Hr c Hc. destruct (C45_old_or_new _ _ _ H0 Hs) as [E | (b & Hb & E)]; rewrite E in Hc; [left; exact Hc|].
  right. rewrite Hr in Hb. apply elem_of_list_In, in_map_iff in Hb as (r & <- & Hin). unfold load_cache in Hc. rewrite Hcodec in Hc by (apply elem_of_list_In; exact Hin).
  repeat case_decide; try discriminate Hc. injection Hc as <-. apply elem_of_list_In. exact Hin.
Qed.
Print Assumptions C45_load.

(** A reader that has opened the cache sees one content, however long it takes. *)
Theorem C45_reader w old k k1 k2 f : at_rest old k -> rtc (sstep w) k k1 -> dk_dir k1 !! cache_name = Some f ->
  rtc (sstep w) k1 k2 -> dk_data k2 !! f = dk_data k1 !! f /\ dk_data k1 !! f = read_cache k1.
Proof.
  intros H0 H1 Hf H2. split; [|unfold read_cache; rewrite Hf; reflexivity].
  apply (steps_constant _ _ _ _ _ H2 (steps_inv _ _ _ _ H1 (at_rest_inv _ _ H0))). unfold links. rewrite Hf. constructor.
Qed.
Print Assumptions C45_reader.

(** A save that gets as far as renaming its file makes its record the one that is read. *)
Theorem C45_saved w old k k1 p d tmp f g : at_rest old k -> rtc (sstep w) k k1 ->
  dk_procs k1 !! p = Some (d, Renaming tmp f) -> dk_dir k1 !! tmp = Some g ->
  exists k2, sstep w k1 k2 /\ dk_procs k2 !! p = Some (d, Stopped) /\ read_cache k2 = Some d.
Proof.
  intros H0 H1 E Hg. pose proof (steps_inv _ _ _ _ H1 (at_rest_inv _ _ H0)) as Hi. destruct (inv_procs _ _ Hi p d _ E) as (_ & (G2 & _) & (_ & _ & G3 & _)).
  eexists. split; [exact (s_rename w _ _ _ _ _ _ E Hg)|]. split; [apply lookup_insert|]. unfold read_cache. simpl. rewrite lookup_insert, (G3 g Hg). exact G2.
Qed.
Print Assumptions C45_saved.

(** Temporary files are never read, and never are the cache: reading depends on the
    name of the cache only, and no temporary file has it. *)
Theorem C45_temp_files k dir' : (forall n, ~ temp_name n -> dir' !! n = dk_dir k !! n) ->
  read_cache (Disk dir' (dk_data k) (dk_synced k) (dk_procs k) (dk_used k) (dk_past k) (dk_started k)) = read_cache k.
Proof. intros H. unfold read_cache. simpl. rewrite H; [reflexivity|]. intros Ht. exact (temp_not_cache _ Ht eq_refl). Qed.
Print Assumptions C45_temp_files.

Definition disk0 : disk := Disk {[cache_name := 0]} {[0 := lit "old"]} {[0]} ∅ ∅ [] [].
Definition tmp_a : str := lit "update-check-1.tmp".
Lemma tmp_a_temp : temp_name tmp_a.
Proof. exists (lit "1"). reflexivity. Qed.

(** A save killed half-way through writing, then power lost: the old record is read. *)
Example C45_met : at_rest (Some (lit "old")) disk0 /\
  exists k, rtc (sstep false) disk0 k /\ dk_started k = [lit "new"] /\ dk_data k !! 1 = Some (lit "ne") /\ read_cache k = Some (lit "old").
Proof.
  split; [repeat split; exists 0; repeat split|]. eexists. split.
  - eapply rtc_l; [apply (s_start false disk0 7 (lit "new") []); reflexivity|].
    eapply rtc_l; [eapply (s_cleaned false _ 7); reflexivity|].
    eapply rtc_l; [eapply (s_create false _ 7 (lit "new") tmp_a 1); [reflexivity|exact tmp_a_temp|apply not_elem_of_empty|reflexivity|reflexivity]|].
    eapply rtc_l; [eapply (s_write false _ 7 (lit "new") tmp_a 1 (lit "ne") (lit "w")); reflexivity|].
    eapply rtc_l; [eapply (s_killed false _ 7); reflexivity|]. apply rtc_refl.
  - repeat split.
Qed.

(** A whole save. *)
Example C45_met_saved : exists k, rtc (sstep false) disk0 k /\ read_cache k = Some (lit "new") /\ dk_dir k !! tmp_a = None.
Proof.
  eexists. split.
  - eapply rtc_l; [apply (s_start false disk0 7 (lit "new") []); reflexivity|].
    eapply rtc_l; [eapply (s_cleaned false _ 7); reflexivity|].
    eapply rtc_l; [eapply (s_create false _ 7 (lit "new") tmp_a 1); [reflexivity|exact tmp_a_temp|apply not_elem_of_empty|reflexivity|reflexivity]|].
    eapply rtc_l; [eapply (s_write false _ 7 (lit "new") tmp_a 1 (lit "new") []); reflexivity|].
    eapply rtc_l; [eapply (s_written false _ 7); reflexivity|]. eapply rtc_l; [eapply (s_sync false _ 7); reflexivity|].
    eapply rtc_l; [eapply (s_close false _ 7); reflexivity|]. eapply rtc_l; [eapply (s_rename false _ 7); reflexivity|]. apply rtc_refl.
  - split; reflexivity.
Qed.

(** On Windows the cache is removed before the new file gets its name: dying in between
    loses the record. *)
Theorem C45_refuted : exists k, at_rest (Some (lit "old")) disk0 /\ rtc (sstep true) disk0 k /\ read_cache k = None.
Proof.
  eexists. split; [repeat split; exists 0; repeat split|]. split.
  - eapply rtc_l; [apply (s_start true disk0 7 (lit "new") []); reflexivity|].
    eapply rtc_l; [eapply (s_cleaned true _ 7); reflexivity|].
    eapply rtc_l; [eapply (s_create true _ 7 (lit "new") tmp_a 1); [reflexivity|exact tmp_a_temp|apply not_elem_of_empty|reflexivity|reflexivity]|].
    eapply rtc_l; [eapply (s_write true _ 7 (lit "new") tmp_a 1 (lit "new") []); reflexivity|].
    eapply rtc_l; [eapply (s_written true _ 7); reflexivity|]. eapply rtc_l; [eapply (s_sync true _ 7); reflexivity|].
    eapply rtc_l; [eapply (s_close true _ 7); reflexivity|]. eapply rtc_l; [eapply (s_remove true _ 7); reflexivity|].
    eapply rtc_l; [eapply (s_killed true _ 7); reflexivity|]. apply rtc_refl.
  - reflexivity.
Qed.
Print Assumptions C45_refuted.

(** ** C46: notices and fetches *)
Local Open Scope Z_scope.

(** docs: checking is off in CI, for development builds and when asked. *)
Definition checking_off (getenv : str -> str) (current : str) : Prop :=
  getenv (lit "BAB_NO_UPDATE_CHECK") = lit "1" \/ getenv (lit "CI") = lit "true" \/ getenv (lit "CI") = lit "1" \/
  current = lit "dev" \/ current = [].
(** The record a file holds at a time: it names a version and is not from the future. *)
Definition holds (decode : str -> option crec) (file : option str) (now : Z) (c : crec) : Prop :=
  exists data, file = Some data /\ decode data = Some c /\ c_version c <> [] /\ c_checked c <= now.
(** The version number of a tag. *)
Definition number_of (tag num : str) : Prop := tag = "v"%char :: num \/ (tag = num /\ forall r, tag <> "v"%char :: r).

Lemma skip_off getenv current : should_skip getenv current = true <-> checking_off getenv current.
Proof. unfold should_skip, checking_off. rewrite !orb_true_iff, !bool_decide_eq_true. tauto. Qed.
Lemma load_holds decode file now c : load_cache decode file now = Some c <-> holds decode file now c.
Proof.
  unfold load_cache, holds. destruct file as [data|]; [|split; [discriminate|intros (d & [=] & _)]]. destruct (decode data) as [c'|] eqn:E.
  - case_decide as H1; [split; [discriminate|intros (d & [= <-] & G1 & G2 & _); congruence]|]. case_decide as H2.
    + split; [discriminate|]. intros (d & [= <-] & G1 & _ & G2). rewrite E in G1. injection G1 as ->. lia.
    + split; [intros [= <-]; exists data; repeat split; [exact E|exact H1|lia]|]. intros (d & [= <-] & G1 & _). congruence.
  - split; [discriminate|]. intros (d & [= <-] & G1 & _). congruence.
Qed.
Lemma trim_number s : number_of s (trim_v s).
Proof.
  destruct s as [|c s]; [right; split; [reflexivity|discriminate]|].
  destruct (decide (c = "v"%char)) as [-> | Hc]; [left; reflexivity|right].
  assert (E : trim_v (c :: s) = c :: s). { unfold trim_v. destruct c as [[] [] [] [] [] [] [] []]; try reflexivity. exfalso. apply Hc. reflexivity. }
  rewrite E. split; [reflexivity|]. intros r [= -> _]. congruence.
Qed.
Lemma number_trim s n : number_of s n -> trim_v s = n.
Proof.
  intros [-> | [-> H]]; [reflexivity|]. destruct n as [|c n]; [reflexivity|]. destruct (decide (c = "v"%char)) as [-> | Hc]; [destruct (H n eq_refl)|].
  unfold trim_v. destruct c as [[] [] [] [] [] [] [] []]; try reflexivity. exfalso. apply Hc. reflexivity.
Qed.

Theorem C46_notice {V} decode (parse : str -> option V) gt getenv current file now v :
  check_cached decode parse gt getenv current file now = Some v <->
  ~ checking_off getenv current /\
  exists c, holds decode file now c /\ v = c_version c /\
  exists l n a b, number_of v l /\ number_of current n /\ l <> [] /\ n <> [] /\ parse l = Some a /\ parse n = Some b /\ gt a b = true.
Proof.
  unfold check_cached. rewrite <- skip_off. destruct (should_skip getenv current) eqn:Es; [split; [discriminate|intros [H _]; congruence]|].
  destruct (load_cache decode file now) as [c|] eqn:El.
  - apply load_holds in El as Hc. unfold is_newer. split.
    + destruct (trim_v (c_version c)) as [|x l] eqn:E1; [discriminate|]. destruct (trim_v current) as [|y n] eqn:E2; [discriminate|].
      destruct (parse (x :: l)) as [a|] eqn:Ea; [|discriminate]. destruct (parse (y :: n)) as [b|] eqn:Eb; [|discriminate]. destruct (gt a b) eqn:Eg; [|discriminate].
      intros [= <-]. split; [congruence|]. exists c. split; [exact Hc|]. split; [reflexivity|]. exists (x :: l), (y :: n), a, b.
      rewrite <- E1, <- E2. repeat split; try apply trim_number; try (rewrite ?E1, ?E2; discriminate); rewrite ?E1, ?E2; assumption.
    + intros (_ & c' & Hc' & -> & l & n & a & b & H1 & H2 & H3 & H4 & H5 & H6 & H7). apply load_holds in Hc'. assert (c' = c) by congruence. subst c'.
      rewrite (number_trim _ _ H1), (number_trim _ _ H2). destruct l; [congruence|]. destruct n; [congruence|]. rewrite H5, H6, H7. reflexivity.
  - split; [discriminate|]. intros (_ & c & Hc & _). apply load_holds in Hc. congruence.
Qed.
Print Assumptions C46_notice.

(** The version in use is never announced as new, and of two versions only one is. *)
Theorem C46_strict {V} decode (parse : str -> option V) gt getenv current file now v :
  (forall a b, gt a b = true -> gt b a = false) ->
  check_cached decode parse gt getenv current file now = Some v ->
  (forall n, number_of v n -> ~ number_of current n) /\
  (forall file' now', check_cached decode parse gt getenv v file' now' <> Some current).
Proof.
  intros Ha H. apply C46_notice in H as (H0 & c & Hc & -> & l & n & a & b & H1 & H2 & H3 & H4 & H5 & H6 & H7). split.
  - intros m Hm Hm'. apply number_trim in H1, H2, Hm, Hm'. assert (a = b) by congruence. subst b. pose proof (Ha a a H7). congruence.
  - intros file' now' H. apply C46_notice in H as (_ & c' & _ & E & l' & n' & a' & b' & G1 & G2 & _ & _ & G5 & G6 & G7).
    apply number_trim in H1, H2, G1, G2. assert (a' = b) by congruence. assert (b' = a) by congruence. subst. rewrite (Ha a b H7) in G7. discriminate G7.
Qed.
Print Assumptions C46_strict.

(** A fetch is started exactly when checking is on and there is no record younger than
    a day. *)
Theorem C46_fetch decode getenv current file now now' :
  is_Some (start_refresh decode getenv current file now now') <->
  ~ checking_off getenv current /\ forall c, holds decode file now c -> 24 * 3600 * 1000000000 <= now' - c_checked c.
Proof.
  unfold start_refresh. rewrite <- skip_off. destruct (should_skip getenv current) eqn:Es; [split; [intros [? [=]]|intros [H _]; congruence]|].
  destruct (load_cache decode file now) as [c|] eqn:El; cbn [is_valid].
  - apply load_holds in El as Hc. case_bool_decide as Hd; unfold day in Hd.
    + split; [intros [? [=]]|]. intros [_ H]. specialize (H c Hc). lia.
    + split; [|eexists; reflexivity]. intros _. split; [congruence|]. intros c' Hc'. apply load_holds in Hc'. assert (c' = c) by congruence. subst c'. lia.
  - split; [|eexists; reflexivity]. intros _. split; [congruence|]. intros c' Hc'. apply load_holds in Hc'. congruence.
Qed.
Print Assumptions C46_fetch.

(** Invocations one after the other in time. *)
Definition in_time (from : Z) (l : list visit) : Prop :=
  match l with [] => True | v :: _ => from <= v_now v end /\
  forall a v b, l = a ++ v :: b -> v_now v <= v_now' v /\ v_now' v <= v_at v /\ match b with [] => True | u :: _ => v_at v <= v_now u end.

Lemma in_time_cons from v l : in_time from (v :: l) -> from <= v_now v /\ v_now v <= v_now' v /\ v_now' v <= v_at v /\ in_time (v_at v) l.
Proof.
  intros [H1 H2]. destruct (H2 [] v l eq_refl) as (G1 & G2 & G3). split; [exact H1|]. split; [exact G1|]. split; [exact G2|]. split; [exact G3|].
  intros a u b ->. exact (H2 (v :: a) u b eq_refl).
Qed.
Lemma in_time_later from l i v : in_time from l -> l !! i = Some v -> from <= v_now' v.
Proof.
  revert from i. induction l as [|u l IH]; intros from [|i] H E; try discriminate E; apply in_time_cons in H as (H1 & H2 & H3 & H4).
  - injection E as ->. lia.
  - specialize (IH _ i H4 E). lia.
Qed.

(** With a record checked at [t], no fetch before a day has passed. *)
Lemma quiet decode encode t l : forall from file c,
  holds decode file from c -> t <= c_checked c -> in_time from l ->
  forall i v, l !! i = Some v -> v_now' v < t + day -> snd (visits decode encode file l) !! i = Some false.
Proof.
  induction l as [|u l IH]; intros from file c Hh Ht Hin i v Hi Hv; [discriminate Hi|]. apply in_time_cons in Hin as (T1 & T2 & T3 & T4). simpl.
  destruct (visit_step decode encode file u) as [file' b] eqn:Eu. destruct (visits decode encode file' l) as [file'' bs] eqn:El. simpl.
  assert (Hhu : holds decode file (v_now u) c). { destruct Hh as (d & H1 & H2 & H3 & H4). exists d. repeat split; try assumption. lia. }
  destruct (start_refresh decode (v_env u) (v_current u) file (v_now u) (v_now' u)) as [cached|] eqn:Es.
  - (* a fetch: a day has passed, here and for all later ones *)
    pose proof (proj1 (C46_fetch decode (v_env u) (v_current u) file (v_now u) (v_now' u)) (mk_is_Some _ _ Es)) as [_ Hd].
    specialize (Hd c Hhu). unfold day in Hv. exfalso. destruct i as [|i]; [injection Hi as ->; lia|].
    pose proof (in_time_later _ _ _ _ T4 Hi). lia.
  - unfold visit_step in Eu. rewrite Es in Eu. injection Eu as <- <-. destruct i as [|i]; [reflexivity|]. simpl.
    change bs with (snd (file'', bs)). rewrite <- El. apply (IH (v_at u) file c) with (v := v); try assumption.
    destruct Hh as (d & H1 & H2 & H3 & H4). exists d. repeat split; try assumption. lia.
Qed.

(** After a refresh that gave a record and was saved, nothing is fetched for a day:
    [before] are the invocations up to then, [after] those that follow. *)
Theorem C46_once_a_day decode encode file from before u after cached r i v :
  decode (encode r) = Some r -> in_time from (before ++ u :: after) ->
  start_refresh decode (v_env u) (v_current u) (fst (visits decode encode file before)) (v_now u) (v_now' u) = Some cached ->
  refresh_cache cached (v_reply u) (v_at u) = Some r -> v_saved u = true ->
  after !! i = Some v -> v_now' v < v_at u + 24 * 3600 * 1000000000 ->
  snd (visits decode encode file (before ++ u :: after)) !! (S (length before + i)) = Some false.
Proof.
  intros Hcodec. revert from file. induction before as [|w before IH]; intros from file Hin Hst Hr Hs Hi Hv.
  - apply in_time_cons in Hin as (T1 & T2 & T3 & T4). simpl in Hst |- *. unfold visit_step. rewrite Hst, Hr, Hs.
    destruct (visits decode encode (Some (encode r)) after) as [f2 bs] eqn:El. simpl. change bs with (snd (f2, bs)). rewrite <- El.
    unfold refresh_cache in Hr. destruct (fetch_latest cached (v_reply u)) as [[[|x v'] e]|]; try discriminate Hr. injection Hr as <-.
    apply (quiet decode encode (v_at u) after (v_at u) _ (CRec (v_at u) (x :: v') e)) with (v := v); try assumption; [|simpl; lia].
    exists (encode (CRec (v_at u) (x :: v') e)). repeat split; [apply Hcodec|discriminate|simpl; lia].
  - apply in_time_cons in Hin as (T1 & T2 & T3 & T4). simpl in Hst |- *. destruct (visit_step decode encode file w) as [file' b] eqn:Ew.
    specialize (IH (v_at w) file' T4). destruct (visits decode encode file' before) as [f1 b1]. simpl in Hst. specialize (IH Hst Hr Hs Hi Hv).
    destruct (visits decode encode file' (before ++ u :: after)) as [f2 b2]. exact IH.
Qed.
Print Assumptions C46_once_a_day.

(** Which invocations ask the server, and what the record is afterwards: the new one if
    there is one and it was saved, otherwise the old one. A failing fetch counts too. *)
Lemma visits_app decode encode l1 l2 : forall file, visits decode encode file (l1 ++ l2) =
  ((visits decode encode (visits decode encode file l1).1 l2).1, (visits decode encode file l1).2 ++ (visits decode encode (visits decode encode file l1).1 l2).2).
Proof.
  induction l1 as [|v l1 IH]; intros file; simpl; [destruct (visits decode encode file l2); reflexivity|]. destruct (visit_step decode encode file v) as [file' b].
  rewrite IH. destruct (visits decode encode file' l1) as [f1 b1]. reflexivity.
Qed.
Lemma visits_length decode encode l : forall file, length (visits decode encode file l).2 = length l.
Proof.
  induction l as [|v l IH]; intros file; simpl; [reflexivity|]. destruct (visit_step decode encode file v) as [file' b]. specialize (IH file').
  destruct (visits decode encode file' l) as [f1 b1]. simpl in *. congruence.
Qed.
Theorem C46_who_asks decode encode file before u after :
  let known := (visits decode encode file before).1 in
  ((visits decode encode file (before ++ u :: after)).2 !! length before = Some true <->
    ~ checking_off (v_env u) (v_current u) /\ forall c, holds decode known (v_now u) c -> 24 * 3600 * 1000000000 <= v_now' u - c_checked c) /\
 ((visits decode encode file (before ++ [u])).1 = known \/
   exists cached r, start_refresh decode (v_env u) (v_current u) known (v_now u) (v_now' u) = Some cached /\ refresh_cache cached (v_reply u) (v_at u) = Some r /\ v_saved u = true /\
    (visits decode encode file (before ++ [u])).1 = Some (encode r)) /\
 (forall cached r, start_refresh decode (v_env u) (v_current u) known (v_now u) (v_now' u) = Some cached -> refresh_cache cached (v_reply u) (v_at u) = Some r -> v_saved u = true ->
     (visits decode encode file (before ++ [u])).1 = Some (encode r)).
Proof.
  intros known. subst known. rewrite !visits_app. cbn [fst snd]. set (known := (visits decode encode file before).1). split; [|split].
  - rewrite lookup_app_r by (rewrite visits_length; lia). rewrite visits_length, Nat.sub_diag. rewrite <- (C46_fetch decode (v_env u) (v_current u) known (v_now u) (v_now' u)).
    simpl. unfold visit_step. destruct (start_refresh decode (v_env u) (v_current u) known (v_now u) (v_now' u)) as [cached|].
    + destruct (refresh_cache cached (v_reply u) (v_at u)) as [r|].
      * destruct (visits decode encode (if v_saved u then Some (encode r) else known) after). simpl. split; eauto.
      * destruct (visits decode encode known after). simpl. split; eauto.
    + destruct (visits decode encode known after). simpl. split; [discriminate|intros [? [=]]].
  - simpl. unfold visit_step. destruct (start_refresh decode (v_env u) (v_current u) known (v_now u) (v_now' u)) as [cached|]; [|left; reflexivity].
    destruct (refresh_cache cached (v_reply u) (v_at u)) as [r|] eqn:Er; [|left; reflexivity]. destruct (v_saved u); [|left; reflexivity]. right. exists cached, r. auto.
  - intros cached r Hs Hr Hv. simpl. unfold visit_step. rewrite Hs, Hr, Hv. reflexivity.
Qed.
Print Assumptions C46_who_asks.

(** The record saved: what the server names, or on 304 the version already known. *)
Theorem C46_recorded cached rep now r : refresh_cache cached rep now = Some r ->
  c_checked r = now /\ c_version r <> [] /\
  ((exists tag etag, rep = Reply 200 (Some tag) etag /\ c_version r = tag /\ c_etag r = etag) \/
   (exists c tag etag, cached = Some c /\ rep = Reply 304 tag etag /\ c_version r = c_version c /\ c_etag r = c_etag c)).
Proof.
  unfold refresh_cache, fetch_latest. destruct rep as [|st tag et]; [discriminate|].
  assert (Hok : match (if decide (st <> 200) then None else match tag with Some (c :: t) => Some (c :: t, et) | _ => None end) with Some (c :: v, etag) => Some (CRec now (c :: v) etag) | _ => None end = Some r ->
    c_checked r = now /\ c_version r <> [] /\ ((exists tag' etag, Reply st tag et = Reply 200 (Some tag') etag /\ c_version r = tag' /\ c_etag r = etag) \/
      (exists c tag' etag, cached = Some c /\ Reply st tag et = Reply 304 tag' etag /\ c_version r = c_version c /\ c_etag r = c_etag c))).
  { case_decide as Hst; [discriminate|]. assert (st = 200) by lia. subst st. destruct tag as [[|x t]|]; try discriminate. intros [= <-]. split; [reflexivity|]. split; [discriminate|].
    left. exists (x :: t), et. auto. }
  case_bool_decide as H304; [|exact Hok]. destruct cached as [c|]; [|exact Hok]. destruct (c_version c) as [|x v] eqn:Ev; [discriminate|].
  intros [= <-]. split; [reflexivity|]. split; [discriminate|]. right. exists c, tag, et. subst st. auto.
Qed.
Print Assumptions C46_recorded.

(** The refresh is given the record that the file holds. *)
Theorem C46_asks_with_record decode getenv current file now now' cached c :
  start_refresh decode getenv current file now now' = Some cached -> (cached = Some c <-> holds decode file now c).
Proof.
  unfold start_refresh. destruct (should_skip _ _); [discriminate|]. destruct (is_valid _ _); [discriminate|]. intros [= <-]. apply load_holds.
Qed.
Print Assumptions C46_asks_with_record.

(** A server that has the release [rel] (its tag and its ETag): it may fail; it gives the
    release, or says that the one with the ETag of the request is the current one. *)
Definition honest (rel : str * str) (asked : str) (rep : reply) : Prop :=
  match rep with
  | Failed => True
  | Reply status tag etag =>
      (status = 200 -> tag = None \/ tag = Some rel.1 /\ etag = rel.2) /\ (status = 304 -> asked <> [] /\ asked = rel.2)
  end.
(** The record came from the server, whose ETags tell releases apart. *)
Definition from_server (released : str * str -> Prop) (c : crec) : Prop := c_etag c = [] \/ released (c_version c, c_etag c).

(** What is recorded is the release the server has, also when it only says that nothing
    has changed; and the record is again from the server. *)
Theorem C46_up_to_date (released : str * str -> Prop) rel cached rep now r :
  (forall v v' e, e <> [] -> released (v, e) -> released (v', e) -> v = v') -> released rel -> (forall c, cached = Some c -> from_server released c) ->
  honest rel (request_etag cached) rep -> refresh_cache cached rep now = Some r -> c_version r = rel.1 /\ c_etag r = rel.2 /\ from_server released r.
Proof.
  intros Hu Hrel Hc Hh Hr. destruct (C46_recorded _ _ _ _ Hr) as (_ & _ & [(tag & etag & -> & H1 & H2)|(c & tag & etag & -> & -> & H1 & H2)]); cbn [honest] in Hh.
  - destruct (proj1 Hh eq_refl) as [[=]|[[= ->] ->]]. split; [exact H1|]. split; [exact H2|]. right. rewrite H1, H2. destruct rel; exact Hrel.
  - destruct (proj2 Hh eq_refl) as [Hn He]. cbn [request_etag] in Hn, He. destruct (Hc c eq_refl) as [H|H]; [contradiction|]. destruct rel as [v e]. cbn [fst snd] in *. rewrite He in H.
    rewrite H1, H2, He. split; [|split; [reflexivity|]].
    + apply (Hu _ _ e); [rewrite <- He; exact Hn|exact H|exact Hrel].
    + right. rewrite H1, H2, He. exact H.
Qed.
Print Assumptions C46_up_to_date.
Example C46_up_to_date_met :
  let released (p : str * str) := p = (lit "v1", lit "e1") \/ p = (lit "v2", lit "e2") in
  let c := CRec 0 (lit "v2") (lit "e2") in
  from_server released c /\ honest (lit "v2", lit "e2") (request_etag (Some c)) (Reply 304 None []) /\ refresh_cache (Some c) (Reply 304 None []) 9 = Some (CRec 9 (lit "v2") (lit "e2")).
Proof. split; [right; right; reflexivity|]. split; [|reflexivity]. split; [discriminate|]. intros _. split; [discriminate|reflexivity]. Qed.

(** A check on demand announces the version the server names, if it is newer, and records
    it in any case. *)
Theorem C46_forced {V} (parse : str -> option V) gt getenv current rep now : 
  (forall v, (force_check parse gt getenv current rep now).1 = Some v <->
     ~ checking_off getenv current /\ v <> [] /\ (exists etag, rep = Reply 200 (Some v) etag) /\
     exists l n a b, number_of v l /\ number_of current n /\ l <> [] /\ n <> [] /\ parse l = Some a /\ parse n = Some b /\ gt a b = true) /\
  (forall r, (force_check parse gt getenv current rep now).2 = Some r <->
     ~ checking_off getenv current /\ c_version r <> [] /\ rep = Reply 200 (Some (c_version r)) (c_etag r) /\ c_checked r = now).
Proof.
  unfold force_check. pose proof (skip_off getenv current) as Off. destruct (should_skip getenv current) eqn:Es.
  { split; [intros v|intros r]; (split; [discriminate|intros [H _]; destruct H; apply Off; reflexivity]). }
  assert (On : ~ checking_off getenv current) by (intros H; apply Off in H; discriminate H).
  assert (N : forall v, is_newer parse gt v current = true <-> exists l n a b, number_of v l /\ number_of current n /\ l <> [] /\ n <> [] /\ parse l = Some a /\ parse n = Some b /\ gt a b = true).
  { intros v. unfold is_newer. split.
    - destruct (trim_v v) as [|x l] eqn:E1; [discriminate|]. destruct (trim_v current) as [|y n] eqn:E2; [discriminate|].
      destruct (parse (x :: l)) as [a|] eqn:Ea; [|discriminate]. destruct (parse (y :: n)) as [b|] eqn:Eb; [|discriminate]. intros Hg. exists (x :: l), (y :: n), a, b.
      rewrite <- E1, <- E2. repeat split; try apply trim_number; try (rewrite ?E1, ?E2; discriminate); rewrite ?E1, ?E2; assumption.
    - intros (l & n & a & b & H1 & H2 & H3 & H4 & H5 & H6 & H7). apply number_trim in H1, H2. rewrite H1, H2. destruct l, n; try contradiction. rewrite H5, H6. exact H7. }
  assert (F : forall v e, fetch_latest None rep = Some (v, e) <-> v <> [] /\ rep = Reply 200 (Some v) e).
  { intros v e. destruct rep as [|st tag et]; cbn [fetch_latest]; [split; [discriminate|intros [_ [=]]]|].
    assert (G : (if decide (st <> 200) then None else match tag with Some (c :: t) => Some (c :: t, et) | _ => None end) = Some (v, e) <-> v <> [] /\ Reply st tag et = Reply 200 (Some v) e).
    { case_decide as Hst; [split; [discriminate|intros [_ [= ? ? ?]]; contradiction]|]. assert (st = 200) by lia. subst st. destruct tag as [[|c t]|].
      - split; [discriminate|]. intros [Hv [= <- _]]. contradiction.
      - split; [intros [= <- <-]; split; [discriminate|reflexivity]|]. intros [_ [= <- <-]]. reflexivity.
      - split; [discriminate|intros [_ [=]]]. }
    destruct (bool_decide (st = 304)); exact G. }
  destruct (fetch_latest None rep) as [[latest etag]|].
  - destruct (proj1 (F latest etag) eq_refl) as [Hl ->]. cbn [fst snd]. split.
    + intros v. destruct (is_newer parse gt latest current) eqn:En.
      * split; [intros [= <-]|intros (_ & _ & [e' [= ->]] & _); reflexivity]. split; [exact On|]. split; [exact Hl|]. split; [eauto|]. apply N. exact En.
      * split; [discriminate|]. intros (_ & _ & [e' E0] & H). injection E0 as -> _; apply N in H. congruence.
    + intros r. destruct latest as [|c t]; [contradiction|]. split.
      * intros [= <-]. cbn. split; [exact On|]. split; [discriminate|]. split; reflexivity.
      * intros (_ & _ & [= E1 E2] & E3). destruct r as [a b d]. cbn in *. subst. reflexivity.
  - split.
    + intros v. split; [discriminate|]. intros (_ & Hv & [e' ->] & _). pose proof (proj2 (F v e') (conj Hv eq_refl)). discriminate.
    + intros r. split; [discriminate|]. intros (_ & Hv & -> & _). pose proof (proj2 (F (c_version r) (c_etag r)) (conj Hv eq_refl)). discriminate.
Qed.
Print Assumptions C46_forced.
Example C46_forced_met :
  let parse (s : str) : option nat := Some (length s) in
  let gt a b := Nat.ltb b a in
  force_check parse gt (fun _ => []) (lit "v1") (Reply 200 (Some (lit "v22")) (lit "e")) 5 = (Some (lit "v22"), Some (CRec 5 (lit "v22") (lit "e"))) /\
  force_check parse gt (fun _ => []) (lit "v22") (Reply 200 (Some (lit "v1")) (lit "e")) 5 = (None, Some (CRec 5 (lit "v1") (lit "e"))).
Proof. split; vm_compute; reflexivity. Qed.

(** A codec for the examples: the version, with the other two fields fixed. *)
Example C46_met :
  let decode (s : str) := Some (CRec 100 s []) in
  let parse (s : str) : option nat := Some (length s) in
  let gt a b := Nat.ltb b a in
  check_cached decode parse gt (fun _ => []) (lit "v1") (Some (lit "v22")) 200 = Some (lit "v22") /\
  check_cached decode parse gt (fun _ => []) (lit "v1") (Some (lit "v2")) 200 = None /\
  check_cached decode parse gt (fun _ => []) (lit "v1") (Some (lit "v22")) 50 = None /\
  start_refresh decode (fun _ => []) (lit "v1") (Some (lit "v22")) 200 (99 + day) = None /\
  start_refresh decode (fun _ => []) (lit "v1") (Some (lit "v22")) 200 (100 + day) = Some (Some (CRec 100 (lit "v22") [])) /\
  start_refresh decode (fun n => if decide (n = lit "CI") then lit "true" else []) (lit "v1") None 0 0 = None.
Proof. vm_compute. auto 10. Qed.

(** Two invocations in time, the first of which fetches. *)
Example C46_met_once :
  let env := fun _ : str => @nil ascii in
  let u := Visit env (lit "v1") 10 11 (Reply 200 (Some (lit "v2")) []) 12 true in
  let v := Visit env (lit "v1") 1000 1001 Failed 1002 true in
  in_time 0 [u; v] /\ v_now' v < v_at u + 24 * 3600 * 1000000000 /\
  refresh_cache None (v_reply u) (v_at u) = Some (CRec 12 (lit "v2") []) /\
  start_refresh (fun _ => None) env (lit "v1") None 10 11 = Some None.
Proof.
  split; [split; [simpl; lia|]|repeat split; vm_compute; reflexivity]. intros a w b E. destruct a as [|x [|y [|z a]]]; try discriminate E; injection E; intros; subst; simpl; lia.
Qed.
(** Of three invocations the first asks and gets no answer, so the second asks again; the
    third does not. *)
Example C46_who_asks_met :
  let env := fun _ : str => @nil ascii in
  let visit t rep := Visit env (lit "v1") t (t + 1) rep (t + 2) true in
  let r := CRec 1002 (lit "v2") [] in
  let l := [visit 10 Failed; visit 1000 (Reply 200 (Some (lit "v2")) []); visit 2000 Failed] in
  visits (fun s => if decide (s = lit "v2 at 1002") then Some r else None) (fun _ => lit "v2 at 1002") None l = (Some (lit "v2 at 1002"), [true; true; false]).
Proof. vm_compute. reflexivity. Qed.
