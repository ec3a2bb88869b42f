(** Theorems about parsing with includes: C12-C16, C18, and C08/C11 for [Parse]. *)
From Verif Require Import Base Types_Model Valid_Model Valid_Spec Path_Model StrOrder Cond_Model Include_Model Include_Spec
  Vars_Proof Valid_Proof Alias_Proof P_Valid Include_Proof.

Definition vorc_ok (vorc : taskmap -> vorders) : Prop := forall tasks, orders_ok tasks (vorc tasks).

(** The file that [Parse(path)] starts from. *)
Definition root_of (cwd path : str) : str := abs_path cwd (Path_Model.clean path).

Lemma parse_Ok fs orc grow vorc cwd path r : parse fs orc grow vorc cwd path = Ok r ->
  parse_file fs orc (2 + size fs) ∅ [] (root_of cwd path) = Ok r /\ validate_all grow (pr_tasks r) (vorc (pr_tasks r)) = [].
Proof.
  unfold parse. destruct (trim_space path); [discriminate|]. fold (root_of cwd path).
  destruct (parse_file _ _ _ _ _ _) as [r'|e]; [|discriminate].
  destruct (validate_all _ _ _) eqn:Ev; [|discriminate]. intros H; injection H as <-. auto.
Qed.

(** C08 for whole file trees. *)
Theorem C08_parse_leaves_no_dangling_reference fs orc grow vorc cwd path r : oracle_ok orc -> vorc_ok vorc ->
  parse fs orc grow vorc cwd path = Ok r ->
  forall a n, edge (pr_tasks r) a n -> is_Some (pr_tasks r !! n).
Proof.
  intros Ho Hv H a n He. apply parse_Ok in H as [_ H].
  eapply C08_no_dangling_reference; [apply Hv|exact H|exact He].
Qed.

(** C12. The tasks of the result are exactly the tasks of the tree, under their
    qualified names, each from one origin. *)
Theorem C12_tasks_are_exactly_the_tree fs orc grow vorc cwd path r : oracle_ok orc -> vorc_ok vorc ->
  parse fs orc grow vorc cwd path = Ok r ->
  (forall n, is_Some (pr_tasks r !! n) <->
     exists nss via f m t0, origin fs (root_of cwd path) nss via f m t0 /\ n = qualify nss m) /\
  no_collision fs (root_of cwd path).
Proof.
  intros Ho Hv H. apply parse_Ok in H as [H _]. pose proof (proj1 (parse_file_iff fs orc Ho _) (ex_intro _ r H)) as (_ & _ & Hn).
  split; [|exact Hn]. apply parse_sound in H as ((bf & Hf & _ & Ht) & _); [|exact Ho]. intros n. split.
  - intros [t Hnt]. apply Ht in Hnt as (nss & m & Hh). pose proof (has_name _ _ _ _ _ _ Hh) as ->.
    apply has_origin in Hh as (via & f & t0 & Hor & _). eauto 10.
  - intros (nss & via & f & m & t0 & Hor & ->). apply origin_has in Hor as [t Hh]. exists t. apply Ht. eauto.
Qed.

(** C12, one level: the file's own tasks and, per include, [ns:t]. *)
Theorem C12_own_and_included fs orc grow vorc cwd path r bf : oracle_ok orc -> vorc_ok vorc ->
  parse fs orc grow vorc cwd path = Ok r -> fs !! root_of cwd path = Some (Some bf) ->
  (forall m, is_Some (f_tasks bf !! m) -> is_Some (pr_tasks r !! m)) /\
  (forall ns p q, f_includes bf !! ns = Some p -> points_to (root_of cwd path) p q ->
     exists rq, parse_file fs orc (2 + size fs) ∅ [] q = Ok rq /\
       forall n, is_Some (pr_tasks rq !! n) -> is_Some (pr_tasks r !! (ns ++ lit ":" ++ n))).
Proof.
  intros Ho Hv H Hf. pose proof (C12_tasks_are_exactly_the_tree _ _ _ _ _ _ _ Ho Hv H) as [Hex _]. split.
  - intros m [t Ht]. apply Hex. exists [], [], (root_of cwd path), m, t. split; [|reflexivity].
    exists bf. split; [constructor; exact Hf|exact Ht].
  - intros ns p q Hp Hq. apply parse_Ok in H as [H _].
    pose proof (proj1 (parse_file_iff fs orc Ho _) (ex_intro _ r H)) as (Hrd & Hac & Hnc).
    assert (Hedge : includes fs (root_of cwd path) q) by (exists bf, ns, p; auto).
    destruct (Hrd q (rtc_once _ _ Hedge)) as [bq Hfq].
    destruct (proj2 (parse_file_iff fs orc Ho q)) as [rq Hrq].
    { split; [|split].
      - intros f Hff. apply Hrd. eapply rtc_l; eassumption.
      - intros f Hff. apply Hac. eapply rtc_l; eassumption.
      - intros nss1 via1 f1 m1 t1 nss2 via2 f2 m2 t2 (b1 & L1 & T1) (b2 & L2 & T2) Heq.
        destruct (Hnc (ns :: nss1) (via1 ++ [bq]) f1 m1 t1 (ns :: nss2) (via2 ++ [bq]) f2 m2 t2) as [E1 E2].
        + exists b1. split; [eapply leads_step; eassumption|exact T1].
        + exists b2. split; [eapply leads_step; eassumption|exact T2].
        + simpl. rewrite Heq. reflexivity.
        + injection E1 as ->. auto. }
    exists rq. split; [exact Hrq|]. intros n [t Hn].
    apply parse_sound in Hrq as ((bq' & _ & _ & Ht) & _); [|exact Ho]. apply Ht in Hn as (nss & m & Hh).
    pose proof (has_name _ _ _ _ _ _ Hh) as ->. apply has_origin in Hh as (via & f & t0 & (b & L & T) & _).
    apply Hex. exists (ns :: nss), (via ++ [bq]), f, m, t0. split; [|reflexivity].
    exists b. split; [eapply leads_step; eassumption|exact T].
Qed.

(** C13. Reading a file tree succeeds exactly when every file in reach is
    readable, no file reaches itself, and no two tasks get the same name. *)
Theorem C13_succeeds_iff fs orc path : oracle_ok orc ->
  (exists r, parse_file fs orc (2 + size fs) ∅ [] path = Ok r) <->
  readable_tree fs path /\ acyclic_tree fs path /\ no_collision fs path.
Proof. intros Ho. apply parse_file_iff; exact Ho. Qed.

(** It always terminates: the recursion never goes deeper than the files that exist. *)
Theorem C13_terminates fs orc path e : oracle_ok orc ->
  parse_file fs orc (2 + size fs) ∅ [] path = Err e -> is_fuel e = false.
Proof. intros Ho H. eapply parse_no_fuel; [|exact H]. rewrite difference_empty_L, size_dom. lia. Qed.

(** Parsing a file that reaches an include cycle fails. *)
Theorem C13_include_cycle_rejected fs orc grow vorc cwd path f : oracle_ok orc ->
  rtc (includes fs) (root_of cwd path) f -> tc (includes fs) f f ->
  exists e, parse fs orc grow vorc cwd path = Err e.
Proof.
  intros Ho Hr Hc. destruct (parse fs orc grow vorc cwd path) as [r|e] eqn:E; [|eauto]. exfalso.
  apply parse_Ok in E as [E _]. pose proof (proj1 (parse_file_iff fs orc Ho _) (ex_intro _ r E)) as (_ & Hac & _).
  exact (Hac f Hr Hc).
Qed.

(** C14. The references of an included task are its own ones with the same
    namespaces in front, and so are its name and aliases. *)
Theorem C14_references_are_namespaced fs orc grow vorc cwd path r nss via f m t0 : oracle_ok orc -> vorc_ok vorc ->
  parse fs orc grow vorc cwd path = Ok r -> origin fs (root_of cwd path) nss via f m t0 ->
  exists t, pr_tasks r !! qualify nss m = Some t /\
    placed_names nss f m t0 t /\
    forall y, edge (pr_tasks r) (qualify nss m) y <->
      exists z, (z ∈ t_deps t0 \/ refers (t_run t0) z) /\ y = qualify nss z.
Proof.
  intros Ho Hv H Hor. apply parse_Ok in H as [H _].
  apply parse_sound in H as ((bf & Hf & _ & Ht) & _); [|exact Ho].
  destruct (origin_has _ _ _ _ _ _ _ Hor) as [t Hh]. exists t.
  assert (Hlk : pr_tasks r !! qualify nss m = Some t) by (apply Ht; eauto).
  destruct (has_placed _ _ _ _ _ _ _ _ _ Hh Hor) as (_ & Hn & _).
  split; [exact Hlk|]. split; [exact Hn|]. intros y. rewrite <- (placed_names_refs _ _ _ _ _ Hn y). split.
  - intros (t' & Ht' & He). rewrite Hlk in Ht'. injection Ht' as <-. exact He.
  - intros He. exists t. auto.
Qed.

(** A file whose references all resolve alone has them resolved where it is included. *)
Theorem C14_included_file_stays_closed fs orc path r nss via f bf rf : oracle_ok orc ->
  parse_file fs orc (2 + size fs) ∅ [] path = Ok r -> leads fs path nss via f bf ->
  parse_file fs orc (2 + size fs) ∅ [] f = Ok rf ->
  (forall a y, edge (pr_tasks rf) a y -> edge (pr_tasks r) (qualify nss a) (qualify nss y)) /\
  (forall a y, is_Some (pr_tasks rf !! a) -> edge (pr_tasks r) (qualify nss a) y ->
     exists z, y = qualify nss z /\ edge (pr_tasks rf) a z) /\
  (~ dangling (pr_tasks rf) -> forall a y, is_Some (pr_tasks rf !! a) ->
     edge (pr_tasks r) (qualify nss a) y -> is_Some (pr_tasks r !! y)).
Proof.
  intros Ho Hr Hl Hrf. apply parse_sound in Hr as ((b1 & _ & _ & Ht) & _); [|exact Ho].
  apply parse_sound in Hrf as ((b2 & _ & _ & Htf) & _); [|exact Ho].
  (* a task of the included file and its image *)
  assert (Himg : forall a t, pr_tasks rf !! a = Some t -> exists t', pr_tasks r !! qualify nss a = Some t' /\
    forall y, names t' y <-> exists z, names t z /\ y = qualify nss z).
  { intros a t Ha. apply Htf in Ha as (nss2 & m & Hh). pose proof (has_name _ _ _ _ _ _ Hh) as ->.
    apply has_origin in Hh as (via2 & g & t0 & (bg & Lg & Tg) & Hn & _).
    assert (Hor : origin fs path (nss ++ nss2) (via2 ++ via) g m t0).
    { exists bg. split; [eapply leads_app; eassumption|exact Tg]. }
    destruct (origin_has _ _ _ _ _ _ _ Hor) as [t' Hh'].
    destruct (has_placed _ _ _ _ _ _ _ _ _ Hh' Hor) as (_ & Hn' & _).
    rewrite qualify_app in Hh'. exists t'. split; [apply Ht; eauto|]. intros y.
    rewrite (placed_names_refs _ _ _ _ _ Hn' y). setoid_rewrite (placed_names_refs _ _ _ _ _ Hn). split.
    - intros (z & Hz & ->). exists (qualify nss2 z). rewrite qualify_app. split; [eauto|reflexivity].
    - intros (z & (w & Hw & ->) & ->). exists w. rewrite qualify_app. auto. }
  split; [|split].
  - intros a y (t & Ha & He). destruct (Himg a t Ha) as (t' & Ha' & Hi). exists t'. split; [exact Ha'|].
    apply Hi. exists y. split; [exact He|reflexivity].
  - intros a y [t Ha] (t' & Ha' & He). destruct (Himg a t Ha) as (t'' & Ha'' & Hi).
    rewrite Ha' in Ha''. injection Ha'' as <-. apply Hi in He as (z & Hz & ->). exists z. split; [reflexivity|].
    exists t. auto.
  - intros Hnd a y [t Ha] (t' & Ha' & He). destruct (Himg a t Ha) as (t'' & Ha'' & Hi).
    rewrite Ha' in Ha''. injection Ha'' as <-. apply Hi in He as (z & Hz & ->).
    destruct (pr_tasks rf !! z) as [tz|] eqn:Ez.
    + destruct (Himg z tz Ez) as (tz' & Hz' & _). eauto.
    + exfalso. apply Hnd. exists a, z. split; [exists t; auto|exact Ez].
Qed.

(** C15. Settings: the task's own, else its file's, else those of the files between
    it and the root. *)
Theorem C15_settings_inherited fs orc grow vorc cwd path r nss via f m t0 : oracle_ok orc -> vorc_ok vorc ->
  parse fs orc grow vorc cwd path = Ok r -> origin fs (root_of cwd path) nss via f m t0 ->
  exists t, pr_tasks r !! qualify nss m = Some t /\ placed_settings via t0 t.
Proof.
  intros Ho Hv H Hor. apply parse_Ok in H as [H _].
  apply parse_sound in H as ((bf & Hf & _ & Ht) & _); [|exact Ho].
  destruct (origin_has _ _ _ _ _ _ _ Hor) as [t Hh]. exists t. split; [apply Ht; eauto|].
  apply (has_placed _ _ _ _ _ _ _ _ _ Hh Hor).
Qed.

(** The innermost file is the one that defines the task; root tasks inherit nothing here. *)
Theorem C15_nearest_file_first fs path nss via f bf : leads fs path nss via f bf ->
  match nss with [] => via = [] | _ => exists rest, via = bf :: rest end.
Proof.
  induction 1 as [path bf Hf|path bf0 ns p path' bf' nss via f bf Hf Hp Hpt Hf' Hl IH]; [reflexivity|].
  destruct nss as [|ns' nss'].
  - subst via. inversion Hl; subst. exists []. simpl. f_equal. congruence.
  - destruct IH as [rest ->]. exists (rest ++ [bf']). reflexivity.
Qed.

(** C16. Without silent/output on parallel blocks, run items are carried over
    exactly, except for the namespace in task references. *)
Theorem C16_items_preserved_partial fs orc grow vorc cwd path r nss via f m t0 : oracle_ok orc -> vorc_ok vorc ->
  parse fs orc grow vorc cwd path = Ok r -> origin fs (root_of cwd path) nss via f m t0 ->
  Forall blocks_unset (t_run t0) ->
  exists t, pr_tasks r !! qualify nss m = Some t /\ Forall2 (moved_exactly nss) (t_run t0) (t_run t).
Proof.
  intros Ho Hv H Hor Hb.
  destruct (C14_references_are_namespaced _ _ _ _ _ _ _ _ _ _ _ _ Ho Hv H Hor) as (t & Ht & [_ _ _ _ _ _ Hr] & _).
  exists t. split; [exact Ht|]. clear -Hr Hb. induction Hr; constructor; inversion Hb; subst; auto using moved_exact.
Qed.

(** C18. Two parses of the same files with any iteration orders agree. *)
Theorem C18_order_independent fs orc1 orc2 grow vorc1 vorc2 cwd path :
  oracle_ok orc1 -> oracle_ok orc2 -> vorc_ok vorc1 -> vorc_ok vorc2 ->
  forall r, parse fs orc1 grow vorc1 cwd path = Ok r -> parse fs orc2 grow vorc2 cwd path = Ok r.
Proof.
  intros Ho1 Ho2 Hv1 Hv2 r H. pose proof H as H0. apply parse_Ok in H as [H Hval].
  pose proof (proj1 (parse_file_iff fs orc1 Ho1 _) (ex_intro _ r H)) as Hok.
  destruct (proj2 (parse_file_iff fs orc2 Ho2 _) Hok) as [r2 H2].
  assert (Hsame : r2 = r).
  { pose proof (parse_sound fs orc1 Ho1 _ _ _ _ _ H) as ((b1 & F1 & (P1 & P2 & P3 & P4 & P5 & P6) & T1) & _).
    pose proof (parse_sound fs orc2 Ho2 _ _ _ _ _ H2) as ((b2 & F2 & (Q1 & Q2 & Q3 & Q4 & Q5 & Q6) & T2) & _).
    assert (b2 = b1) as -> by congruence.
    assert (Htm : pr_tasks r2 = pr_tasks r).
    { apply map_eq. intros n. apply option_eq. intros t. rewrite T2, T1. reflexivity. }
    pose proof (C08_accepted_iff_well_formed grow _ _ (Hv1 (pr_tasks r))) as Hiff.
    apply Hiff in Hval as (_ & _ & Hna).
    (* aliases *)
    assert (Hal : pr_aliases r2 = pr_aliases r).
    { assert (A1 : pr_aliases r = build_alias_map (pr_tasks r) (or_aliases orc1 [] (pr_tasks r))).
      { revert H. simpl. destruct (decide _); [discriminate|]. rewrite F1.
        destruct (include_loop _ _ _ _ _ _ _); [|discriminate]. intros H; injection H as <-. reflexivity. }
      assert (A2 : pr_aliases r2 = build_alias_map (pr_tasks r2) (or_aliases orc2 [] (pr_tasks r2))).
      { revert H2. simpl. destruct (decide _); [discriminate|]. rewrite F1.
        destruct (include_loop _ _ _ _ _ _ _); [|discriminate]. intros H2; injection H2 as <-. reflexivity. }
      rewrite A1, A2, Htm. apply map_eq. intros a. apply option_eq. intros n.
      rewrite (alias_map_iff (pr_tasks r) _ (proj2 (proj2 Ho2) [] (pr_tasks r)) Hna).
      rewrite (alias_map_iff (pr_tasks r) _ (proj2 (proj2 Ho1) [] (pr_tasks r)) Hna). reflexivity. }
    destruct r, r2; simpl in *; congruence. }
  subst r2. revert H0. unfold parse. destruct (trim_space path); [discriminate|].
  fold (root_of cwd path). rewrite H, H2. intros _.
  assert (validate_all grow (pr_tasks r) (vorc2 (pr_tasks r)) = []) as ->; [|reflexivity].
  apply C08_accepted_iff_well_formed; [apply Hv2|].
  apply (C08_accepted_iff_well_formed grow _ _ (Hv1 (pr_tasks r))). exact Hval.
Qed.

Theorem C18_failure_order_independent fs orc1 orc2 grow vorc1 vorc2 cwd path :
  oracle_ok orc1 -> oracle_ok orc2 -> vorc_ok vorc1 -> vorc_ok vorc2 ->
  (exists e, parse fs orc1 grow vorc1 cwd path = Err e) <-> (exists e, parse fs orc2 grow vorc2 cwd path = Err e).
Proof.
  intros Ho1 Ho2 Hv1 Hv2. split; intros [e He].
  - destruct (parse fs orc2 grow vorc2 cwd path) as [r|e'] eqn:E; [|eauto].
    rewrite (C18_order_independent fs orc2 orc1 grow vorc2 vorc1 cwd path Ho2 Ho1 Hv2 Hv1 r E) in He. discriminate.
  - destruct (parse fs orc1 grow vorc1 cwd path) as [r|e'] eqn:E; [|eauto].
    rewrite (C18_order_independent fs orc1 orc2 grow vorc1 vorc2 cwd path Ho1 Ho2 Hv1 Hv2 r E) in He. discriminate.
Qed.

(** C11 for [Parse]: the alias map returned with the result. *)
Theorem C11_parse_aliases fs orc grow vorc cwd path r : oracle_ok orc -> vorc_ok vorc ->
  parse fs orc grow vorc cwd path = Ok r ->
  (forall a n, pr_aliases r !! a = Some n <-> exists i, declares (pr_tasks r) n i a) /\
  (forall n, is_Some (pr_tasks r !! n) -> pr_aliases r !! n = None).
Proof.
  intros Ho Hv H. apply parse_Ok in H as [H Hval].
  assert (A1 : pr_aliases r = build_alias_map (pr_tasks r) (or_aliases orc [] (pr_tasks r))).
  { revert H. simpl. destruct (decide _); [discriminate|]. destruct (fs !! _) as [[bf|]|]; try discriminate.
    destruct (include_loop _ _ _ _ _ _ _); [|discriminate]. intros H; injection H as <-. reflexivity. }
  apply (C08_accepted_iff_well_formed grow _ _ (Hv (pr_tasks r))) in Hval as (_ & _ & Hna).
  pose proof (alias_map_iff (pr_tasks r) _ (proj2 (proj2 Ho) [] (pr_tasks r)) Hna) as Hm. rewrite A1.
  split; [exact Hm|]. intros n [t Ht]. destruct (build_alias_map _ _ !! n) as [m|] eqn:Em; [|reflexivity].
  exfalso. apply Hm in Em as [i Hd]. apply Hna. exists n, m, i. split; [exact Hd|]. left. eauto.
Qed.

(** ** Concrete trees *)
Definition key_order {A} (m : gmap str A) : list str := (map_to_list m).*1.
Definition fwd : oracle := Oracle (fun _ m => key_order m) (fun _ m => key_order m) (fun _ m => key_order m).
Definition bwd : oracle := Oracle (fun _ m => rev (key_order m)) (fun _ m => rev (key_order m)) (fun _ m => rev (key_order m)).
Definition vfwd (m : taskmap) : vorders := VOrders (key_order m) (key_order m) (key_order m) (key_order m).

Lemma fwd_ok : oracle_ok fwd.
Proof. split; [|split]; intros p m; unfold iteration_order; reflexivity. Qed.
Lemma bwd_ok : oracle_ok bwd.
Proof. split; [|split]; intros p m; unfold iteration_order; simpl; unfold key_order; rewrite <- Permutation_rev; reflexivity. Qed.
Lemma vfwd_ok : vorc_ok vfwd.
Proof. intros m. repeat split; unfold iteration_order; reflexivity. Qed.

Definition file (incs : list (string * string)) (tasks : list (string * task)) : schema :=
  Schema None None None None [] (list_to_map (map (fun p => (lit p.1, lit p.2)) incs)) (tm tasks).
Definition fsof (l : list (string * schema)) : fsys := list_to_map (map (fun p => (lit p.1, Some p.2)) l).

(** A diamond: the root includes two files that include the same third file. *)
Definition diamond : fsys := fsof
  [("/r/Babfile", file [("x", "x/Babfile"); ("y", "./y/../y/Babfile")] [("all", mk_task [lit "x:go"] [ref_to "y:lib:t"])]);
   ("/r/x/Babfile", file [("lib", "../lib.yml")] [("go", mk_task [lit "lib:t"] [])]);
   ("/r/y/Babfile", file [("lib", "/r/lib.yml")] [("go", mk_task [] [par_of [ref_to "lib:t"]])]);
   ("/r/lib.yml", file [] [("t", with_aliases "tt" [] (mk_task [] []))])].

Definition sorted_names (r : res perr presult) : list str :=
  match r with Ok r => sort_strs (key_order (pr_tasks r)) | Err _ => [] end.

Example C12_example : exists r,
  parse diamond fwd go_grow vfwd (lit "/r") (lit "Babfile") = Ok r /\
  bool_decide (sort_strs (key_order (pr_tasks r)) = map lit ["all"; "x:go"; "x:lib:t"; "y:go"; "y:lib:t"]%string) = true /\
  resolve_task_name (pr_aliases r) (lit "y:lib:tt") = lit "y:lib:t".
Proof.
  destruct (parse diamond fwd go_grow vfwd (lit "/r") (lit "Babfile")) as [r|e] eqn:E; [|vm_compute in E; discriminate].
  exists r. split; [reflexivity|].
  enough (bool_decide (sorted_names (parse diamond fwd go_grow vfwd (lit "/r") (lit "Babfile"))
     = map lit ["all"; "x:go"; "x:lib:t"; "y:go"; "y:lib:t"]%string) = true /\
     match parse diamond fwd go_grow vfwd (lit "/r") (lit "Babfile") with
     | Ok r => resolve_task_name (pr_aliases r) (lit "y:lib:tt") | Err _ => [] end = lit "y:lib:t") as H.
  { rewrite E in H. exact H. }
  vm_compute. split; reflexivity.
Qed.

Example C14_example : origin diamond (lit "/r/Babfile") [lit "y"; lit "lib"] 
    [file [] [("t", with_aliases "tt" [] (mk_task [] []))]; file [("lib", "/r/lib.yml")] [("go", mk_task [] [par_of [ref_to "lib:t"]])]]
    (lit "/r/lib.yml") (lit "t") (with_aliases "tt" [] (mk_task [] [])).
Proof.
  exists (file [] [("t", with_aliases "tt" [] (mk_task [] []))]). split; [|vm_compute; reflexivity].
  change [file [] [("t", with_aliases "tt" [] (mk_task [] []))]; file [("lib", "/r/lib.yml")] [("go", mk_task [] [par_of [ref_to "lib:t"]])]]
    with ([file [] [("t", with_aliases "tt" [] (mk_task [] []))]] ++ [file [("lib", "/r/lib.yml")] [("go", mk_task [] [par_of [ref_to "lib:t"]])]]).
  eapply leads_step with (path' := lit "/r/y/Babfile") (p := lit "./y/../y/Babfile"); [vm_compute; reflexivity..|].
  change [file [] [("t", with_aliases "tt" [] (mk_task [] []))]] with ([] ++ [file [] [("t", with_aliases "tt" [] (mk_task [] []))]]).
  eapply leads_step with (path' := lit "/r/lib.yml") (p := lit "/r/lib.yml"); [vm_compute; reflexivity..|].
  constructor. vm_compute. reflexivity.
Qed.

(** An include cycle is refused, from every entry point. *)
Definition ring : fsys := fsof
  [("/a", file [("b", "b")] [("t", mk_task [] [])]); ("/b", file [("c", "c")] [("t", mk_task [] [])]);
   ("/c", file [("b", "b")] [("t", mk_task [] [])])].
Example C13_example :
  rtc (includes ring) (root_of (lit "/") (lit "a")) (lit "/b") /\ tc (includes ring) (lit "/b") (lit "/b") /\
  parse ring bwd go_grow vfwd (lit "/") (lit "a") =
    Err (PInclude (lit "/a") (lit "b") (PInclude (lit "/b") (lit "c") (PInclude (lit "/c") (lit "b")
      (PCircular (lit "/b") (map lit ["a"; "b"; "c"; "b"]%string))))).
Proof.
  assert (Hbc : includes ring (lit "/b") (lit "/c")).
  { eexists _, (lit "c"), (lit "c"). split; [vm_compute; reflexivity|]. split; vm_compute; reflexivity. }
  assert (Hcb : includes ring (lit "/c") (lit "/b")).
  { eexists _, (lit "b"), (lit "b"). split; [vm_compute; reflexivity|]. split; vm_compute; reflexivity. }
  split; [|split].
  - apply rtc_once. eexists _, (lit "b"), (lit "b"). split; [vm_compute; reflexivity|]. split; vm_compute; reflexivity.
  - eapply tc_l; [exact Hbc|apply tc_once; exact Hcb].
  - vm_compute. reflexivity.
Qed.

(** C16 fails for blocks: silent and output of an included parallel block are lost. *)
Definition quiet_block : run_item :=
  RPar (ParOpts 3 [] (lit "interleaved") 0 None (Some true) (Some false) [] []) [ref_to "t"].
Definition quiet : fsys := fsof
  [("/r/Babfile", file [("s", "s/Babfile")] []);
   ("/r/s/Babfile", file [] [("q", mk_task [] [quiet_block]); ("t", mk_task [] [])])].
Theorem C16_block_settings_lost_refuted : exists fs cwd path r nss via f m t0 t,
  parse fs fwd go_grow vfwd cwd path = Ok r /\ origin fs (root_of cwd path) nss via f m t0 /\
  pr_tasks r !! qualify nss m = Some t /\ ~ Forall2 (moved_exactly nss) (t_run t0) (t_run t).
Proof.
  destruct (parse quiet fwd go_grow vfwd (lit "/r") (lit "Babfile")) as [r|e] eqn:E; [|vm_compute in E; discriminate].
  exists quiet, (lit "/r"), (lit "Babfile"), r, [lit "s"], ([] ++ [file [] [("q", mk_task [] [quiet_block]); ("t", mk_task [] [])]]),
    (lit "/r/s/Babfile"), (lit "q"), (mk_task [] [quiet_block]).
  assert (Hor : origin quiet (root_of (lit "/r") (lit "Babfile")) [lit "s"]
    ([] ++ [file [] [("q", mk_task [] [quiet_block]); ("t", mk_task [] [])]]) (lit "/r/s/Babfile") (lit "q") (mk_task [] [quiet_block])).
  { exists (file [] [("q", mk_task [] [quiet_block]); ("t", mk_task [] [])]). split; [|vm_compute; reflexivity].
    eapply leads_step with (path' := lit "/r/s/Babfile") (p := lit "s/Babfile"); [vm_compute; reflexivity..|].
    constructor. vm_compute. reflexivity. }
  destruct (C14_references_are_namespaced _ _ _ _ _ _ _ _ _ _ _ _ fwd_ok vfwd_ok E Hor) as (t & Ht & _).
  exists t. split; [exact E|]. split; [exact Hor|]. split; [exact Ht|]. intros Hbad.
  assert (Hrun : match parse quiet fwd go_grow vfwd (lit "/r") (lit "Babfile") with
    | Ok r => match pr_tasks r !! lit "s:q" with
              | Some t => match t_run t with [RPar o _] => bool_decide (q_silent o = None) | _ => false end
              | None => false end
    | Err _ => false end = true) by (vm_compute; reflexivity).
  rewrite E in Hrun. change (qualify [lit "s"] (lit "q")) with (lit "s:q") in Ht. rewrite Ht in Hrun.
  inversion Hbad as [|? y ? l Hy Hl Heq1 Heq2]; subst. rewrite <- Heq2 in Hrun. inversion Hy; subst.
  inversion Hl; subst. apply bool_decide_eq_true in Hrun. discriminate.
Qed.

Example C18_example :
  bool_decide (sorted_names (parse diamond fwd go_grow vfwd (lit "/r") (lit "Babfile")) =
    sorted_names (parse diamond bwd go_grow vfwd (lit "/r") (lit "Babfile"))) = true.
Proof. vm_compute. reflexivity. Qed.

(** Settings inherited through two files. *)
Definition layered : fsys := <[lit "/r/Babfile" := Some (file [("m", "m")] [])]>
  (<[lit "/r/m" := Some (Schema (Some {[lit "v" := lit "mid"; lit "w" := lit "mid"]}) None (Some true) None (lit "d") {[lit "i" := lit "i"]} ∅)]>
  {[lit "/r/i" := Some (Schema (Some {[lit "v" := lit "inner"]}) None None (Some false) [] ∅
      (tm [("t", Task [] 1 0 [] [] [] [] (Some {[lit "u" := lit "own"]}) None None None [] [] [] [])]))]}).
Example C15_example :
  match parse layered bwd go_grow vfwd (lit "/r") (lit "Babfile") with
  | Ok r => match pr_tasks r !! lit "m:i:t" with
            | Some t => (map (fun k => smap_get (t_vars t) !! lit k) ["u"; "v"; "w"; "z"]%string, t_silent t, t_output t, t_dir t, t_source t)
            | None => ([], None, None, [], []) end
  | Err _ => ([], None, None, [], []) end
  = ([Some (lit "own"); Some (lit "inner"); Some (lit "mid"); None], Some true, Some false, lit "d", lit "/r/i").
Proof. vm_compute. reflexivity. Qed.

(** C61. A circular-include error comes from real includes: the chain shows the
    base names of a path of includes from the root to a file already on it, but in
    alphabetical order, so not the path itself. *)
Theorem C61_circular_include_chain_partial fs orc path e p ch : oracle_ok orc ->
  parse_file fs orc (2 + size fs) ∅ [] path = Err e -> cause e = PCircular p ch ->
  exists l, hd p l = path /\ NoDup l /\ linked (includes fs) (l ++ [p]) /\ p ∈ l /\
    exists shown, ch = shown ++ [base p] /\ shown ≡ₚ map base l.
Proof.
  intros Ho H Hc. destruct (circular_chain fs orc (2 + size fs) [] ∅ [] path e p ch) as (l & H1 & H2 & H3 & H4 & H5); auto.
  - constructor.
  - intros f. split; [intros Hf; exfalso; apply (not_elem_of_empty f Hf)|intros Hf; inversion Hf].
  - intros i a b Ha Hb. destruct i; [simpl in Hb; discriminate|discriminate].
  - exists l. split; [exact H4|]. split; [exact H1|]. split; [exact H2|]. split; [exact H3|].
    eexists. split; [exact H5|]. apply sort_strs_perm.
Qed.

Definition reversed_ring : fsys := fsof
  [("/c", file [("x", "b")] []); ("/b", file [("x", "a")] []); ("/a", file [("x", "c")] [])].
Theorem C61_chain_is_not_the_include_path_refuted : exists fs path e p ch,
  parse_file fs fwd (2 + size fs) ∅ [] path = Err e /\ cause e = PCircular p ch /\
  (* the only path of includes to the repeated file *)
  map lit ["/c"; "/b"; "/a"; "/c"]%string !! 0 = Some path /\
  linked (includes fs) (map lit ["/c"; "/b"; "/a"; "/c"]%string) /\
  ch <> map base (map lit ["/c"; "/b"; "/a"; "/c"]%string).
Proof.
  exists reversed_ring, (lit "/c"), (PInclude (lit "/c") (lit "x") (PInclude (lit "/b") (lit "x") (PInclude (lit "/a") (lit "x")
      (PCircular (lit "/c") (map lit ["a"; "b"; "c"; "c"]%string))))), (lit "/c"), (map lit ["a"; "b"; "c"; "c"]%string).
  split; [vm_compute; reflexivity|]. split; [reflexivity|]. split; [reflexivity|]. split; [|discriminate].
  intros i a b Ha Hb.
  destruct i as [|[|[|i]]]; simpl in Ha, Hb; try discriminate; injection Ha as <-; injection Hb as <-.
  - eexists _, (lit "x"), (lit "b"). split; [vm_compute; reflexivity|]. split; vm_compute; reflexivity.
  - eexists _, (lit "x"), (lit "a"). split; [vm_compute; reflexivity|]. split; vm_compute; reflexivity.
  - eexists _, (lit "x"), (lit "c"). split; [vm_compute; reflexivity|]. split; vm_compute; reflexivity.
Qed.

Print Assumptions C61_circular_include_chain_partial.
Print Assumptions C61_chain_is_not_the_include_path_refuted.
Print Assumptions C08_parse_leaves_no_dangling_reference.
Print Assumptions C12_tasks_are_exactly_the_tree.
Print Assumptions C12_own_and_included.
Print Assumptions C13_succeeds_iff.
Print Assumptions C13_terminates.
Print Assumptions C13_include_cycle_rejected.
Print Assumptions C14_references_are_namespaced.
Print Assumptions C14_included_file_stays_closed.
Print Assumptions C15_settings_inherited.
Print Assumptions C15_nearest_file_first.
Print Assumptions C16_items_preserved_partial.
Print Assumptions C16_block_settings_lost_refuted.
Print Assumptions C18_order_independent.
Print Assumptions C18_failure_order_independent.
Print Assumptions C11_parse_aliases.
