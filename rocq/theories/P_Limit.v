(** C99: the limit of a parallel block restricts the order in which things happen, and
    nothing else. *)
From Verif Require Import Base Types_Model Path_Model Interp_Model Interp_Spec Interp_Proof Interp_Escape Vars_Proof Cond_Model Valid_Spec Run_Model Run_Logic Run_Inv Run_Proof Run_Drive P_Run P_Dry P_Same
  P_Apart P_Outcome Limit_Spec Limit_Proof.
From Verif Require Run_Apart.
Import Run_Apart (apart, leads).

(** ** Proofs *)
(** A limit that never holds anything up. *)
Definition roomy_item (it : run_item) : run_item :=
  match it with RPar o items => RPar (with_limit (Z.max 1 (Z.of_nat (length items))) o) items | _ => it end.
Definition roomy_task (t : task) : task := with_run (map roomy_item (t_run t)) t.
Definition roomy (tasks : taskmap) : taskmap := roomy_task <$> tasks.

Lemma roomy_unlimited tasks : roomy tasks = roomy (unlimited tasks).
Proof.
  unfold roomy, unlimited. rewrite <- map_fmap_compose. apply map_fmap_ext. intros n t _. unfold roomy_task, unlimited_task, with_run. cbn. f_equal.
  rewrite map_map. apply map_ext. intros []; reflexivity.
Qed.
Lemma roomy_same tasks tasks' : same_but_limits tasks tasks' -> roomy tasks = roomy tasks'.
Proof. intros H. rewrite (roomy_unlimited tasks), (roomy_unlimited tasks'). unfold same_but_limits in H. rewrite H. reflexivity. Qed.
Lemma roomy_raised keep tasks : raised_tasks keep tasks (roomy tasks).
Proof.
  intros n. unfold roomy. rewrite lookup_fmap. destruct (tasks !! n) as [t|]; cbn; [|exact I]. exists (map roomy_item (t_run t)). split; [reflexivity|].
  induction (t_run t) as [|it l IH]; cbn; constructor; [|exact IH]. destruct it; cbn; try constructor; unfold raised; lia.
Qed.
Lemma roomy_refers items n : refers (map roomy_item items) n <-> refers items n.
Proof.
  split.
  - intros H. remember (map roomy_item items) as l eqn:E. revert items E. induction H as [r rest|o sub rest n H _|it rest n H IH]; intros items E; destruct items as [|x items]; try discriminate E; cbn in E; injection E as E1 E2.
    + destruct x; try discriminate E1. injection E1 as <-. constructor.
    + destruct x; try discriminate E1. injection E1 as _ <-. constructor. exact H.
    + apply refers_later, IH. exact E2.
  - intros H. induction H; cbn; constructor; assumption.
Qed.
Lemma roomy_edge tasks a n : edge (roomy tasks) a n <-> edge tasks a n.
Proof.
  unfold edge, roomy. setoid_rewrite lookup_fmap. split.
  - intros (t & Ht & H). destruct (tasks !! a) as [t0|] eqn:E; [|discriminate Ht]. cbn in Ht. injection Ht as <-. exists t0. split; [reflexivity|].
    cbn [t_deps t_run roomy_task with_run] in H. rewrite roomy_refers in H. exact H.
  - intros (t & Ht & H). exists (roomy_task t). rewrite Ht. split; [reflexivity|]. cbn [t_deps t_run roomy_task with_run]. rewrite roomy_refers. exact H.
Qed.
Lemma roomy_cyclic tasks : cyclic (roomy tasks) -> cyclic tasks.
Proof. intros (a & H). exists a. revert H. generalize a at 2 4. intros b H. induction H as [x y H|x y z H _ IH]; [apply tc_once|eapply tc_l; [|exact IH]]; apply roomy_edge; exact H. Qed.
Lemma roomy_leads tasks n m : leads (roomy tasks) n m -> leads tasks n m.
Proof.
  intros [->|(t & x & Ht & Hr & Hx)]; [left; reflexivity|right]. unfold roomy in Ht. rewrite lookup_fmap in Ht. destruct (tasks !! n) as [t0|] eqn:E; [|discriminate Ht].
  cbn in Ht. injection Ht as <-. exists t0, x. split; [reflexivity|]. split; [apply roomy_refers; exact Hr|].
  clear -Hx. induction Hx as [|x y z H _ IH]; [reflexivity|]. eapply rtc_l; [apply roomy_edge; exact H|exact IH].
Qed.
Lemma roomy_apart tasks : apart tasks -> apart (roomy tasks).
Proof.
  intros Ha T t i o items j1 j2 r1 r2 m Ht Hi H1 H2 Hne L1 L2. unfold roomy in Ht. rewrite lookup_fmap in Ht. destruct (tasks !! T) as [t0|] eqn:E; [|discriminate Ht].
  cbn in Ht. injection Ht as <-. cbn in Hi. rewrite (list_lookup_fmap roomy_item) in Hi. destruct (t_run t0 !! i) as [it|] eqn:Ei; [|discriminate Hi]. cbn in Hi. injection Hi as Hi.
  destruct it; cbn in Hi; try discriminate Hi. injection Hi as _ ->.
  exact (Ha T t0 i _ items j1 j2 r1 r2 m E Ei H1 H2 Hne (roomy_leads _ _ _ L1) (roomy_leads _ _ _ L2)).
Qed.
Lemma roomy_keyed tasks : keyed tasks -> keyed (roomy tasks).
Proof. intros H n t Ht. unfold roomy in Ht. rewrite lookup_fmap in Ht. destruct (tasks !! n) as [t0|] eqn:E; [|discriminate Ht]. cbn in Ht. injection Ht as <-. exact (H n t0 E). Qed.
Lemma roomy_kept tasks h : globals_kept tasks h -> globals_kept (roomy tasks) h.
Proof.
  intros H T pa q v t Hin Ht. unfold roomy in Ht. rewrite lookup_fmap in Ht. destruct (tasks !! T) as [t0|] eqn:E; [|discriminate Ht]. cbn in Ht. injection Ht as <-.
  exact (H T pa q v t0 Hin E).
Qed.

(** What two histories that are alike up to the ghosts have in common. *)
Definition plain (ev : event) : Prop := match ev with OClaim _ _ _ | OStart _ _ => False | _ => True end.
Lemma bare_in h h' ev : map bare h = map bare h' -> ev ∈ h -> exists ev', ev' ∈ h' /\ bare ev' = bare ev.
Proof.
  intros E H. assert (Hb : bare ev ∈ map bare h') by (rewrite <- E; apply elem_of_list_fmap; eauto).
  apply elem_of_list_fmap in Hb as (ev' & Hb & Hin). eauto.
Qed.
Lemma bare_plain ev ev' : plain ev -> bare ev' = bare ev -> ev' = ev.
Proof. intros Hp E. destruct ev; try contradiction Hp; destruct ev'; cbn in E; congruence. Qed.
Lemma plain_in h h' ev : map bare h = map bare h' -> plain ev -> ev ∈ h -> ev ∈ h'.
Proof. intros E Hp H. destruct (bare_in h h' ev E H) as (ev' & Hin & Hb). rewrite <- (bare_plain ev ev' Hp Hb). exact Hin. Qed.
Lemma start_in h h' x b : map bare h = map bare h' -> OStart x b ∈ h -> exists s, OStart (rescope s x) b ∈ h'.
Proof.
  intros E H. destruct (bare_in h h' _ E H) as (ev' & Hin & Hb). destruct ev' as [| | | | | | | | | | | | | |x' b'| | | | | | | | | | | | | |]; try discriminate Hb.
  cbn in Hb. injection Hb as E1 E2 E3 E4 E5 E6 E7 E8 E9 ->. exists (x_scope x'). destruct x', x. cbn in *. subst. exact Hin.
Qed.
Lemma bare_happened h h' ev past : map bare h = map bare h' -> plain ev -> happened h ev past -> exists past', happened h' ev past' /\ map bare past = map bare past'.
Proof.
  unfold happened. intros E Hp [l ->]. rewrite map_app in E. cbn in E. symmetry in E. apply map_eq_app in E as (l1 & l2 & -> & El & E2).
  destruct l2 as [|ev' past']; [discriminate E2|]. cbn in E2. injection E2 as Eb E2. exists past'. rewrite <- (bare_plain ev ev' Hp Eb). split; [exists l1; reflexivity|congruence].
Qed.
Lemma bare_undisturbed h h' : map bare h = map bare h' -> undisturbed h -> undisturbed h'.
Proof.
  intros E [H1 H2]. symmetry in E. split.
  - intros m past Hh. destruct (bare_happened h' h (OCancel m) past E I Hh) as (past' & Hh' & Ep). destruct (H1 m past' Hh') as (T & pa & j & e & Hin).
    exists T, pa, j, e. symmetry in Ep. eapply plain_in; [exact Ep|exact I|exact Hin].
  - intros Hin. apply H2. eapply plain_in; [exact E|exact I|exact Hin].
Qed.
Lemma bare_kept tasks h h' : map bare h = map bare h' -> globals_kept tasks h -> globals_kept tasks h'.
Proof. intros E H T pa q v t Hin Ht. symmetry in E. eapply H; [|exact Ht]. eapply plain_in; [exact E|exact I|exact Hin]. Qed.
Lemma bare_world h1 h1' h2 h2' : map bare h1 = map bare h1' -> map bare h2 = map bare h2' -> same_world h1 h2 -> same_world h1' h2'.
Proof.
  intros E1 E2 [W1 W2 W3 W4]. symmetry in E1, E2. constructor.
  - intros x b x' b' H1 H2 A B. apply (start_in h1' h1 x b E1) in H1 as (s1 & H1). apply (start_in h2' h2 x' b' E2) in H2 as (s2 & H2). exact (W1 _ _ _ _ H1 H2 A B).
  - intros T pa b b' H1 H2. apply (fun P => plain_in h1' h1 _ E1 P) in H1; [|exact I]. apply (fun P => plain_in h2' h2 _ E2 P) in H2; [|exact I]. eapply W2; eassumption.
  - intros T pa q a q' a' H1 H2. apply (fun P => plain_in h1' h1 _ E1 P) in H1; [|exact I]. apply (fun P => plain_in h2' h2 _ E2 P) in H2; [|exact I]. eapply W3; eassumption.
  - intros T pa d s s' H1 H2. apply (fun P => plain_in h1' h1 _ E1 P) in H1; [|exact I]. apply (fun P => plain_in h2' h2 _ E2 P) in H2; [|exact I]. eapply W4; eassumption.
Qed.
Lemma bare_replies h1 h1' h2 h2' : map bare h1 = map bare h1' -> map bare h2 = map bare h2' -> same_replies h1 h2 -> same_replies h1' h2'.
Proof.
  intros E1 E2 W T pa q v q' v' H1 H2. symmetry in E1, E2. apply (fun P => plain_in h1' h1 _ E1 P) in H1; [|exact I]. apply (fun P => plain_in h2' h2 _ E2 P) in H2; [|exact I]. eapply W; eassumption.
Qed.
Lemma bare_uncancelled h h' : map bare h = map bare h' -> (forall m, OCancel m ∉ h) -> forall m, OCancel m ∉ h'.
Proof. intros E H m Hin. symmetry in E. apply (H m). eapply plain_in; [exact E|exact I|exact Hin]. Qed.
Lemma rescope_command environ s x x' : same_command environ (rescope s x) x' <-> same_command environ x x'.
Proof. reflexivity. Qed.
Lemma bare_done_too environ ev ev' h h' : map bare h = map bare h' -> bare ev' = bare ev -> done_too environ ev h -> done_too environ ev' h'.
Proof.
  intros E Eb H. assert (Hc : plain ev \/ ~ plain ev) by (destruct ev; cbn; tauto). destruct Hc as [Hp|Hp].
  - rewrite (bare_plain ev ev' Hp Eb). destruct ev; cbn in H |- *; try exact I; try contradiction Hp.
    + destruct H as (v & H). exists v. eapply plain_in; [exact E|exact I|exact H].
    + destruct H as (d' & H). exists d'. eapply plain_in; [exact E|exact I|exact H].
  - destruct ev as [| | | | | | | | | | | | | |x b| | | | | | | | | | | | | |]; try (contradiction (Hp I)); destruct ev' as [| | | | | | | | | | | | | |x' b'| | | | | | | | | | | | | |]; try discriminate Eb; [exact I|].
    cbn in Eb. injection Eb as E1 E2 E3 E4 E5 E6 E7 E8 E9 _. cbn in H |- *. destruct H as (y & Hy & He & Hs). apply (start_in h h' y true E) in Hy as (s & Hy). exists (rescope s y).
    split; [exact Hy|]. rewrite E1, E2. split; [eapply plain_in; [exact E|exact I|exact He]|].
    unfold same_command in Hs |- *. rewrite E1, E2, E3, E4, E5. exact Hs.
Qed.

Lemma bare_action ev ev' : bare ev' = bare ev -> action ev' = action ev.
Proof. destruct ev, ev'; cbn; intros E; congruence. Qed.

Lemma cancelled_in h c : cancelledb h c = true -> exists m, OCancel m ∈ h.
Proof.
  induction h as [|ev h IH]; intros H; [discriminate H|]. destruct ev; cbn in H; try (destruct (IH H); eexists; right; eassumption). eexists. left.
Qed.
Lemma given_up g p h p' : rtc (cstep g) ([], p) (h, p') -> (exists T pa j c, OGiveUp T pa j c ∈ h) -> exists m, OCancel m ∈ h.
Proof.
  intros Hrun. enough (G : forall s, rtc (cstep g) ([], p) s -> (exists T pa j c, OGiveUp T pa j c ∈ s.1) -> exists m, OCancel m ∈ s.1) by exact (G _ Hrun). clear h p' Hrun.
  apply (rtc_ind_r (fun s => (exists T pa j c, OGiveUp T pa j c ∈ s.1) -> exists m, OCancel m ∈ s.1)).
  - intros (T & pa & j & c & H). inversion H.
  - intros [h q] [h1 q1] _ Hstep IH (T & pa & j & c & H). cbn in IH, H |- *. inversion Hstep; subst.
    + apply elem_of_cons in H as [<-|H].
      * match goal with Ha : allowed _ _ _ |- _ => cbn in Ha; apply cancelled_in in Ha as (m & Hm) end. exists m. right. exact Hm.
      * destruct IH as (m & Hm); [eauto 6|]. exists m. right. exact Hm.
    + eexists. left.
Qed.

Section Theorems.
  Context (k : config) (root : str).
  Lemma raised_run keep tasks tasks' h p : raised_tasks keep tasks tasks' -> run_of k tasks root h p -> ((exists T pa j c, OGiveUp T pa j c ∈ h) -> keep) ->
    exists h' p', run_of k tasks' root h' p' /\ map bare h = map bare h' /\ (forall r, p = Ret r -> p' = Ret r).
  Proof.
    intros Ht Hr Hg. unfold run_of, run_with_tasks in Hr. rewrite (wide_size keep tasks tasks' Ht) in Hr.
    destruct (wide_run keep (k_vars k) _ _ h p (wide_run_task keep k tasks tasks' Ht (2 + size tasks') root (Args true None None [] false None [0] []) []) Hr Hg) as (h' & p' & R & E & W).
    exists h', p'. split; [exact R|]. split; [symmetry; exact E|]. intros r ->. exact (wide_ret keep _ _ W).
  Qed.

  (** Whatever can happen with a limit, at any moment of a run and to its end, can happen
      with a higher one, cancelled or not. *)
  Theorem C99_raised tasks tasks' h p : raised_tasks True tasks tasks' -> run_of k tasks root h p ->
    exists h' p', run_of k tasks' root h' p' /\ map bare h = map bare h' /\ (forall r, p = Ret r -> p' = Ret r).
  Proof. intros Ht Hr. eapply raised_run; [exact Ht|exact Hr|auto]. Qed.
  (** As long as nothing is cancelled, it can also happen without any. *)
  Theorem C99_no_limit tasks tasks' h p : raised_tasks False tasks tasks' -> run_of k tasks root h p -> (forall m, OCancel m ∉ h) ->
    exists h' p', run_of k tasks' root h' p' /\ map bare h = map bare h' /\ (forall r, p = Ret r -> p' = Ret r).
  Proof. intros Ht Hr Hn. eapply raised_run; [exact Ht|exact Hr|]. intros H. destruct (given_up _ _ _ _ Hr H) as (m & Hm). exact (Hn m Hm). Qed.

  Context (tasks tasks' : taskmap) (Hsame : same_but_limits tasks tasks') (Hkeyed : keyed tasks) (Hdry : k_dry k = false).
  Context (Hge : forall n, nul_free (k_getenv k n)) (Hv : all_nul_free (k_vars k))
    (Htv : forall T t vs, tasks !! T = Some t -> t_vars t = Some vs -> all_nul_free vs).
  Lemma roomy_vars T t vs : roomy tasks !! T = Some t -> t_vars t = Some vs -> all_nul_free vs.
  Proof. unfold roomy. rewrite lookup_fmap. destruct (tasks !! T) as [t0|] eqn:E; [|discriminate]. intros H Hs. cbn in H. injection H as <-. exact (Htv T t0 vs E Hs). Qed.

  (** With other limits, a run without a cycle whose blocks have independent items succeeds
      or fails as before. *)
  Theorem C99_same_outcome h h' r r' : apart tasks -> ~ cyclic tasks -> run_of k tasks root h (Ret r) -> run_of k tasks' root h' (Ret r') ->
    globals_kept tasks h -> globals_kept tasks' h' -> same_world h h' -> undisturbed h -> undisturbed h' -> (r = None <-> r' = None).
  Proof.
    intros Ha Hc R1 R2 K1 K2 Hw U1 U2.
    destruct (C99_raised tasks (roomy tasks) h _ (roomy_raised True tasks) R1) as (g & p & Rg & Eg & Pg).
    destruct (C99_raised tasks' (roomy tasks') h' _ (roomy_raised True tasks') R2) as (g' & p' & Rg' & Eg' & Pg').
    specialize (Pg _ eq_refl). specialize (Pg' _ eq_refl). subst p p'. apply roomy_kept in K1, K2. rewrite <- (roomy_same tasks tasks' Hsame) in Rg', K2.
    eapply (C87_independent_items_same_outcome k (roomy tasks) root (roomy_keyed tasks Hkeyed) Hdry Hge Hv roomy_vars g g' r r');
      eauto using roomy_apart, bare_kept, bare_world, bare_undisturbed. intros H. exact (Hc (roomy_cyclic tasks H)).
  Qed.
  (** Two runs with different limits that both succeed do the same things. *)
  Theorem C99_same_things h h' : run_of k tasks root h (Ret None) -> run_of k tasks' root h' (Ret None) ->
    (forall m, OCancel m ∉ h) -> (forall m, OCancel m ∉ h') -> globals_kept tasks h -> globals_kept tasks' h' -> same_replies h h' ->
    (forall ev T pa, ev ∈ h -> action ev = Some (T, pa) -> done_too (k_environ k) ev h') /\
    (forall ev T pa, ev ∈ h' -> action ev = Some (T, pa) -> done_too (k_environ k) ev h).
  Proof.
    intros R1 R2 N1 N2 K1 K2 Hs.
    destruct (C99_raised tasks (roomy tasks) h _ (roomy_raised True tasks) R1) as (g & p & Rg & Eg & Pg).
    destruct (C99_raised tasks' (roomy tasks') h' _ (roomy_raised True tasks') R2) as (g' & p' & Rg' & Eg' & Pg').
    specialize (Pg _ eq_refl). specialize (Pg' _ eq_refl). subst p p'. apply roomy_kept in K1, K2. rewrite <- (roomy_same tasks tasks' Hsame) in Rg', K2.
    destruct (C86_same_things k (roomy tasks) root (roomy_keyed tasks Hkeyed) Hdry Hge Hv roomy_vars g g' Rg Rg') as (A & B & _);
      eauto using bare_kept, bare_replies, bare_uncancelled.
    split; intros ev T pa Hin Ha.
    - destruct (bare_in h g ev Eg Hin) as (ev' & Hin' & Eb). specialize (A ev' T pa Hin'). rewrite (bare_action ev ev' Eb) in A. specialize (A Ha).
      eapply bare_done_too; [symmetry; exact Eg'|symmetry; exact Eb|exact A].
    - destruct (bare_in h' g' ev Eg' Hin) as (ev' & Hin' & Eb). specialize (B ev' T pa Hin'). rewrite (bare_action ev ev' Eb) in B. specialize (B Ha).
      eapply bare_done_too; [symmetry; exact Eg|symmetry; exact Eb|exact B].
  Qed.
End Theorems.
Print Assumptions C99_raised. Print Assumptions C99_no_limit. Print Assumptions C99_same_outcome. Print Assumptions C99_same_things.

(** ** Cases *)
(** The block of [many] with a limit of 1, of 2, of its 3 items, and without. *)
Definition few (z : Z) : taskmap := tm [mk "all" None ["prep"%string] [par z [ref "a"; ref "b"; cmd "z"]]; mk "prep" None [] [note "hi"];
  mk "a" (Some {[lit "x" := lit "1"]}) ["lib"%string] [ask "who"; cmd "greet ${{ who }} ${{ x }}"]; mk "b" None ["lib"%string] [cmd "b"]; mk "lib" None [] [cmd "l"]].
Lemma few_raised (keep : Prop) z z' : raised 3 z z' -> (keep -> (0 < z)%Z -> (0 < z')%Z) -> raised_tasks keep (few z) (few z').
Proof.
  intros H Hk n. unfold few, tm. cbn [map list_to_map t_name mk foldr fst snd].
  destruct (decide (n = lit "all")) as [->|N1]; [rewrite !lookup_insert|rewrite !(lookup_insert_ne _ (lit "all")) by congruence].
  { exists [par z' [ref "a"; ref "b"; cmd "z"]]. split; [reflexivity|]. constructor; [|constructor]. apply (raised_block keep (ParOpts 1 [] [] z None None None [] []) _ z'); assumption. }
  match goal with |- match ?m !! n with _ => _ end => destruct (m !! n) as [t|]; [|exact I] end.
  exists (t_run t). split; [destruct t; reflexivity|]. induction (t_run t); constructor; [constructor|assumption].
Qed.
Lemma few_same z z' : same_but_limits (few z) (few z').
Proof. unfold same_but_limits, unlimited, few, tm. cbn [map list_to_map t_name mk foldr fst snd]. rewrite !fmap_insert. reflexivity. Qed.
Definition one_by_one (z : Z) := ran (conf false) (few z) (lit "all") (Go [] 200 fine :: blk [1; 0; 2]).
Definition together := ran (conf false) (few 0) (lit "all") (Go [] 200 fine :: [Do [] (MSlot 2); Do [] (MSlot 0); Go [2] 200 fine; Go [0] 200 (says (lit "v")); Do [] (MReturn 2); Do [] (MFree 2);
  Do [] (MReturn 0); Do [] (MFree 0); Do [] (MSlot 1); Go [1] 200 fine; Do [] (MReturn 1); Do [] (MFree 1); Do [] MJoin; Go [] 60 fine]).
Example C99_met : raised_tasks True (few 1) (few 2) /\ raised_tasks True (few 1) (few 3) /\ raised_tasks True (few 0) (few 3) /\ raised_tasks False (few 1) (few 0) /\
  same_but_limits (few 1) (few 0) /\ keyed (few 1) /\ apart (few 1) /\ ~ cyclic (few 1) /\
  run_of (conf false) (few 1) (lit "all") (one_by_one 1).1 (Ret None) /\ run_of (conf false) (few 0) (lit "all") together.1 (Ret None) /\
  commands (one_by_one 1).1 = map lit ["l"; "b"; "greet v 1"; "z"]%string /\ commands together.1 = map lit ["l"; "z"; "greet v 1"; "b"]%string /\
  globals_kept (few 1) (one_by_one 1).1 /\ globals_kept (few 0) together.1 /\ same_world (one_by_one 1).1 together.1 /\
  undisturbed (one_by_one 1).1 /\ undisturbed together.1 /\ (forall m, OCancel m ∉ (one_by_one 1).1 ++ together.1).
Proof.
  do 4 (split; [apply few_raised; unfold raised; lia|]). split; [apply few_same|]. split; [apply keyed_by; vm_compute; reflexivity|].
  split; [apply apart_by; vm_compute; reflexivity|]. split.
  { assert (Ho : Vars_Proof.iteration_order (few 1) [lit "all"; lit "prep"; lit "a"; lit "b"; lit "lib"]) by (apply (bool_decide_unpack _); vm_compute; exact I).
    rewrite <- (Valid_Proof.cycles_iff Valid_Model.go_grow (few 1) _ Ho). vm_compute. auto. }
  do 2 (split; [apply finished; vm_compute; reflexivity|]). do 2 (split; [vm_compute; reflexivity|]). do 2 (split; [apply kept_by; vm_compute; reflexivity|]).
  split; [apply alike_world; vm_compute; reflexivity|]. do 2 (split; [apply calm; vm_compute; reflexivity|]).
  intros m Hin. assert (H : has (fun ev => match ev with OCancel _ => true | _ => false end) ((one_by_one 1).1 ++ together.1) = false) by (vm_compute; reflexivity).
  pose proof (has_not _ _ H _ Hin) as E. discriminate E.
Qed.

Lemma run_prefix g p h p' : rtc (cstep g) ([], p) (h, p') -> forall h0, h0 `suffix_of` h -> exists q, rtc (cstep g) ([], p) (h0, q).
Proof.
  intros Hrun. enough (G : forall s, rtc (cstep g) ([], p) s -> forall h0, h0 `suffix_of` s.1 -> exists q, rtc (cstep g) ([], p) (h0, q)) by exact (G _ Hrun). clear h p' Hrun.
  apply (rtc_ind_r (fun s => forall h0, h0 `suffix_of` s.1 -> exists q, rtc (cstep g) ([], p) (h0, q))).
  - intros h0 H. apply suffix_nil_inv in H as ->. exists p. reflexivity.
  - intros [h q] [h1 q1] Hr Hstep IH h0 H. cbn in IH, H. assert (Hc : h0 = h1 \/ h0 `suffix_of` h).
    { destruct h0 as [|e0 h0]; [right; apply suffix_nil|]. inversion Hstep; subst; apply suffix_cons_inv in H as [H|H]; auto. }
    destruct Hc as [->|Hc]; [|apply IH; exact Hc]. exists q1. eapply rtc_r; eassumption.
Qed.
Fixpoint since (f : event -> bool) (h : hist) : hist := match h with [] => [] | ev :: r => if f ev then h else since f r end.
Lemma since_suffix f h : since f h `suffix_of` h.
Proof. induction h as [|ev h IH]; cbn; [reflexivity|]. destruct (f ev); [reflexivity|]. apply suffix_cons_r. exact IH. Qed.
Definition is_first (ev : event) : bool := match ev with OSlot T pa j => bool_decide (T = lit "all" /\ pa = [0] /\ j = 0) | _ => false end.

(** The other way round it is false: with a lower limit not everything can happen that can
    happen without one. *)
Theorem C99_lowered_refuted : exists k tasks tasks' root h, same_but_limits tasks tasks' /\ keyed tasks' /\ run_of k tasks root h (Ret None) /\ (forall m, OCancel m ∉ h) /\
  forall h' p', run_of k tasks' root h' p' -> map bare h <> map bare h'.
Proof.
  exists (conf false), (few 0), (few 1), (lit "all"), together.1. split; [apply few_same|]. assert (Hk : keyed (few 1)) by (apply keyed_by; vm_compute; reflexivity). split; [exact Hk|].
  split; [apply finished; vm_compute; reflexivity|]. split; [exact (fun m H => proj2 (proj2 (proj2 (proj2 (proj2 (proj2 (proj2 (proj2 (proj2 (proj2 (proj2 (proj2 (proj2 (proj2 (proj2 (proj2 (proj2 C99_met)))))))))))))))) m (proj2 (elem_of_app _ _ _) (or_intror H)))|].
  intros h' p' R E.
  (* the moment at which items 2 and 0 both hold a slot *)
  assert (Hm : exists past, happened together.1 (OSlot (lit "all") [0] 0) past /\ OSlot (lit "all") [0] 2 ∈ past /\ OFree (lit "all") [0] 2 ∉ past /\ OFree (lit "all") [0] 0 ∉ past).
  { exists (tail (since is_first together.1)).
    assert (H1 : has (fun ev => match ev with OSlot T pa j => bool_decide (T = lit "all" /\ pa = [0] /\ j = 2) | _ => false end) (tail (since is_first together.1)) = true) by (vm_compute; reflexivity).
    assert (H2 : has (fun ev => match ev with OFree T pa j => true | _ => false end) (tail (since is_first together.1)) = false) by (vm_compute; reflexivity).
    split.
    { assert (H3 : match since is_first together.1 with ev :: _ => is_first ev | [] => false end = true) by (vm_compute; reflexivity). unfold happened.
      pose proof (since_suffix is_first together.1) as Hs. destruct (since is_first together.1) as [|ev r]; [discriminate H3|]. destruct ev; try discriminate H3. apply bool_decide_eq_true in H3 as (-> & -> & ->). exact Hs. }
    split; [apply has_in in H1 as (ev & Hin & Hev); destruct ev; try discriminate Hev; apply bool_decide_eq_true in Hev as (-> & -> & ->); exact Hin|].
    split; intros Hin; pose proof (has_not _ _ H2 _ Hin) as Hev; discriminate Hev. }
  destruct Hm as (past & Hh & A1 & A2 & A3). destruct (bare_happened _ _ (OSlot (lit "all") [0] 0) past E I Hh) as (past' & Hh' & Ep). destruct (run_prefix _ _ _ _ R _ Hh') as (q & Rq).
  assert (Hb : forall T pa j, OFree T pa j ∉ past -> OFree T pa j ∉ OSlot (lit "all") [0] 0 :: past').
  { intros T pa j Hn Hin. apply elem_of_cons in Hin as [Hin|Hin]; [discriminate Hin|]. apply Hn. symmetry in Ep. eapply plain_in; [exact Ep|exact I|exact Hin]. }
  assert (Hs2 : OSlot (lit "all") [0] 2 ∈ past') by (eapply plain_in; [exact Ep|exact I|exact A1]).
  assert (Hb2 : forall j, j ∈ [0; 2] -> busy (OSlot (lit "all") [0] 0 :: past') (lit "all") 0 j).
  { intros j Hj. apply elem_of_cons in Hj as [->|Hj]; [split; [left|apply Hb; exact A3]|]. apply elem_of_list_singleton in Hj as ->. split; [right; exact Hs2|apply Hb; exact A2]. }
  assert (Hnd : NoDup [0; 2]) by (apply (bool_decide_unpack _); vm_compute; exact I).
  assert (Ht : few 1 !! lit "all" = Some (mk "all" None ["prep"%string] [par 1 [ref "a"; ref "b"; cmd "z"]])) by (vm_compute; reflexivity).
  assert (Hl : (0 < q_limit (ParOpts 1 [] [] 1 None None None [] []))%Z) by (cbn; lia).
  change (run_of (conf false) (few 1) (lit "all") (OSlot (lit "all") [0] 0 :: past') q) in Rq.
  pose proof (C25_limit (conf false) (few 1) (lit "all") Hk _ _ (lit "all") _ 0 _ _ [0; 2] Rq Ht eq_refl Hl Hnd Hb2) as Hfin. cbn in Hfin. lia.
Qed.
Print Assumptions C99_lowered_refuted.
