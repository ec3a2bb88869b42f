(** The tree of tasks (cmd/list.go). *)
From Verif Require Import Base StrOrder Types_Model Valid_Model Path_Model Path_Proof Include_Model Vars_Proof Pick_Proof Cli_Model Cli_Spec.

Section NodeInd.
Context (P : node -> Prop).
Context (H : forall d a l, Forall (fun kc => P (snd kc)) l -> P (Node d a l)).
Fixpoint node_ind' (n : node) : P n :=
  match n with
  | Node d a l => H d a l ((fix go l : Forall (fun kc => P (snd kc)) l :=
      match l with [] => Forall_nil_2 _ | kc :: l' => Forall_cons_2 _ _ _ (node_ind' (snd kc)) (go l') end) l)
  end.
End NodeInd.

(** ** Go maps as lists *)
Section Kids.
Context {A : Type}.
Implicit Types (l : list (str * A)).
Lemma kid_elem k c l : kid k l = Some c -> (k, c) ∈ l.
Proof. induction l as [|[k' n] l IH]; simpl; [discriminate|]. case_decide; [intros [= ->]; subst; constructor|]. intros E. constructor. auto. Qed.
Lemma kid_some k l : is_Some (kid k l) <-> k ∈ map fst l.
Proof.
  induction l as [|[k' n] l IH]; simpl; [split; [intros [? H]; discriminate H|intros H; inversion H]|]. rewrite elem_of_cons. case_decide; [split; [auto|intros _; eexists; reflexivity]|].
  rewrite IH. naive_solver.
Qed.
Lemma elem_kid k c l : NoDup (map fst l) -> (k, c) ∈ l -> kid k l = Some c.
Proof.
  induction l as [|[k' n] l IH]; simpl; intros Hn Hin; [inversion Hin|]. inversion Hn as [|? ? H1 H2]; subst. apply elem_of_cons in Hin as [[= -> ->] | Hin].
  - rewrite decide_True by reflexivity. reflexivity.
  - rewrite decide_False; [apply IH; assumption|]. intros ->. apply H1. apply elem_of_list_In. apply (in_map fst _ (k', c)). apply elem_of_list_In. exact Hin.
Qed.
Lemma kid_set k k' c l : kid k' (set_kid k c l) = if decide (k' = k) then Some c else kid k' l.
Proof.
  induction l as [|[j n] l IH]; simpl; [reflexivity|]. destruct (decide (k = j)) as [->|E]; simpl.
  - repeat case_decide; congruence.
  - destruct (decide (k' = j)) as [->|E2]; [rewrite decide_False by congruence; reflexivity|]. exact IH.
Qed.
Lemma set_kid_keys k c l : NoDup (map fst l) -> NoDup (map fst (set_kid k c l)).
Proof.
  induction l as [|[j n] l IH]; simpl; intros Hn; [apply NoDup_singleton|]. inversion Hn as [|? ? H1 H2]; subst. case_decide as E; simpl; [subst; constructor; assumption|].
  constructor; [|apply IH; assumption]. intros Hin. apply kid_some in Hin as [x Hx]. rewrite kid_set, decide_False in Hx by congruence. apply H1, kid_some. eexists; exact Hx.
Qed.
Lemma kid_map {B} (f : str -> A -> B) k l : kid k (map (fun kc => (fst kc, f (fst kc) (snd kc))) l) = f k <$> kid k l.
Proof. induction l as [|[j n] l IH]; simpl; [reflexivity|]. case_decide; [subst; reflexivity|exact IH]. Qed.
Lemma keys_map {B} (f : str -> A -> B) l : map fst (map (fun kc => (fst kc, f (fst kc) (snd kc))) l) = map fst l.
Proof. rewrite map_map. reflexivity. Qed.
End Kids.

(** ** What a tree holds *)
Fixpoint sub (n : node) (path : list str) : option node :=
  match path with
  | [] => Some n
  | k :: rest => match kid k (children n) with Some c => sub c rest | None => None end
  end.
Definition info (n : node) : list str * str := match n with Node d a _ => (a, d) end.
Definition get (n : node) (path : list str) : option (list str * str) := info <$> sub n path.
Definition wf (n : node) : Prop := forall path m, sub n path = Some m -> NoDup (map fst (children m)).

Lemma wf_kid n k c : wf n -> kid k (children n) = Some c -> wf c.
Proof. intros H E path m Hm. apply (H (k :: path)). simpl. rewrite E. exact Hm. Qed.
Lemma wf_node n : NoDup (map fst (children n)) -> (forall k c, kid k (children n) = Some c -> wf c) -> wf n.
Proof.
  intros H1 H2 path m Hm. destruct path as [|k path]; simpl in Hm; [injection Hm as <-; exact H1|].
  destruct (kid k (children n)) as [c|] eqn:E; [|discriminate Hm]. exact (H2 k c E path m Hm).
Qed.
Lemma wf_fresh : wf fresh_node.
Proof. apply wf_node; simpl; [constructor|discriminate]. Qed.

(** The step of one part. *)
Definition below_part (p : str) (rest : list str) (t : task) (n : node) : node :=
  let c := match kid p (children n) with Some c => c | None => fresh_node end in
  match rest with [] => Node (t_desc t) (get_all_aliases t) (children c) | _ => add_node rest t c end.
Lemma add_node_cons p rest t n : add_node (p :: rest) t n =
  match n with Node d a l => Node d a (set_kid p (below_part p rest t n) l) end.
Proof. destruct n as [d a l]. reflexivity. Qed.

Lemma add_wf parts t n : wf n -> wf (add_node parts t n).
Proof.
  revert n. induction parts as [|p rest IH]; intros n Hn; [destruct n; exact Hn|]. rewrite add_node_cons. destruct n as [d a l].
  assert (Hc : wf (match kid p l with Some c => c | None => fresh_node end)).
  { destruct (kid p l) eqn:E; [exact (wf_kid _ _ _ Hn E)|exact wf_fresh]. }
  apply wf_node; simpl.
  - apply set_kid_keys. exact (Hn [] _ eq_refl).
  - intros k c. rewrite kid_set. case_decide as E.
    + intros [= <-]. unfold below_part. simpl. destruct rest as [|q rest]; [|apply IH; exact Hc].
      set (c0 := match kid p l with Some c => c | None => fresh_node end) in *. clearbody c0.
      apply wf_node; [exact (Hc [] _ eq_refl)|]. simpl. intros j x Hx. exact (wf_kid _ _ _ Hc Hx).
    + intros Hk. exact (wf_kid (Node d a l) k c Hn Hk).
Qed.

Definition blank : list str * str := ([], []).
Lemma get_cons n k path : get n (k :: path) = match kid k (children n) with Some c => get c path | None => None end.
Proof. unfold get. simpl. destruct (kid k (children n)); reflexivity. Qed.
Lemma get_fresh path : get fresh_node path = match path with [] => Some blank | _ => None end.
Proof. destruct path; reflexivity. Qed.

Lemma get_add_self parts t n : parts <> [] -> get (add_node parts t n) parts = Some (get_all_aliases t, t_desc t).
Proof.
  revert n. induction parts as [|p rest IH]; intros n Hp; [congruence|]. rewrite add_node_cons. destruct n as [d a l]. rewrite get_cons. simpl.
  rewrite kid_set, decide_True by reflexivity. unfold below_part. destruct rest as [|q rest]; [reflexivity|]. apply IH. discriminate.
Qed.
Lemma get_add_other parts t n path : path <> parts -> path <> [] ->
  get (add_node parts t n) path =
    match get n path with Some i => Some i | None => if bool_decide (path `prefix_of` parts) then Some blank else None end.
Proof.
  revert n path. induction parts as [|p rest IH]; intros n path Hp Hne.
  - rewrite bool_decide_eq_false_2; [destruct n; simpl; destruct (get _ path); reflexivity|]. intros H. apply prefix_nil_inv in H. congruence.
  - rewrite add_node_cons. destruct n as [d a l]. destruct path as [|k path]; [congruence|]. rewrite !get_cons. simpl children. rewrite kid_set.
    destruct (decide (k = p)) as [->|Hk].
    + assert (Hpath : path <> rest) by congruence. unfold below_part. simpl children.
      set (c0 := match kid p l with Some c => c | None => fresh_node end).
      assert (Hd : bool_decide (p :: path `prefix_of` p :: rest) = bool_decide (path `prefix_of` rest)).
      { apply bool_decide_ext. split; [apply prefix_cons_inv_2|apply prefix_cons]. }
      rewrite Hd. destruct path as [|j path].
      * rewrite bool_decide_eq_true_2 by apply prefix_nil. destruct rest as [|q rest]; [congruence|].
        transitivity (Some (info c0)); [rewrite add_node_cons; destruct c0; reflexivity|]. unfold c0. destruct (kid p l) as [c|]; [reflexivity|]. reflexivity.
      * assert (Hin : get (match rest with [] => Node (t_desc t) (get_all_aliases t) (children c0) | _ => add_node rest t c0 end) (j :: path)
                      = match get c0 (j :: path) with Some i => Some i | None => if bool_decide (j :: path `prefix_of` rest) then Some blank else None end).
        { destruct rest as [|q rest]; [|apply IH; congruence]. rewrite bool_decide_eq_false_2 by (intros H; apply prefix_nil_inv in H; congruence).
          rewrite !get_cons. simpl children. destruct (kid j (children c0)); [|reflexivity]. destruct (get n path); reflexivity. }
        rewrite Hin. unfold c0. destruct (kid p l) as [c|]; [reflexivity|]. rewrite get_fresh. reflexivity.
    + rewrite bool_decide_eq_false_2 by (intros H; apply prefix_cons_inv_1 in H; congruence). destruct (kid k l) as [c|]; [|reflexivity]. destruct (get c path); reflexivity.
Qed.
Lemma get_add_root parts t n : get (add_node parts t n) [] = get n [].
Proof. destruct parts, n; reflexivity. Qed.

(** ** Split at colons *)
Lemma split_ne d s : split_on d s <> [].
Proof. destruct s as [|c s]; simpl; [discriminate|]. case_decide; [discriminate|]. destruct (split_on d s); discriminate. Qed.
Lemma join_cons_gen d w l : l <> [] -> join_with [d] (w :: l) = w ++ d :: join_with [d] l.
Proof. destruct l; [congruence|reflexivity]. Qed.
Lemma split_join_gen d s : join_with [d] (split_on d s) = s.
Proof.
  induction s as [|c s IH]; [reflexivity|]. simpl. pose proof (split_ne d s) as Hn. case_decide as E.
  - rewrite join_cons_gen by exact Hn. rewrite IH, E. reflexivity.
  - destruct (split_on d s) as [|w ws] eqn:Es; [congruence|]. destruct ws as [|w' ws]; [simpl in *; congruence|].
    rewrite join_cons_gen in IH |- * by discriminate. rewrite <- IH. reflexivity.
Qed.
Lemma split_words d s : Forall (fun w => d ∉ w) (split_on d s).
Proof.
  induction s as [|c s IH]; simpl; [constructor; [intros H; inversion H|constructor]|]. case_decide as E; [constructor; [intros H; inversion H|exact IH]|].
  destruct (split_on d s) as [|w ws]; [constructor; [|constructor]|].
  - intros H. apply elem_of_list_singleton in H. congruence.
  - inversion IH as [|? ? H1 H2]; subst. constructor; [|exact H2]. intros H. apply elem_of_cons in H as [H|H]; [congruence|]. exact (H1 H).
Qed.
Lemma join_split_gen d l : l <> [] -> Forall (fun w => d ∉ w) l -> split_on d (join_with [d] l) = l.
Proof.
  assert (H1 : forall w s, d ∉ w -> split_on d (w ++ d :: s) = w :: split_on d s).
  { induction w as [|c w IH]; intros s Hw; simpl; [rewrite decide_True by reflexivity; reflexivity|].
    rewrite decide_False by (intros ->; apply Hw; constructor). rewrite IH; [reflexivity|]. intros H. apply Hw. constructor. exact H. }
  assert (H2 : forall w, d ∉ w -> split_on d w = [w]).
  { induction w as [|c w IH]; intros Hw; [reflexivity|]. simpl. rewrite decide_False by (intros ->; apply Hw; constructor). rewrite IH; [reflexivity|]. intros H. apply Hw. constructor. exact H. }
  induction l as [|w l IH]; intros Hn Hf; [congruence|]. inversion Hf as [|? ? Hw Hl]; subst. destruct l as [|w' l]; [apply H2; exact Hw|].
  rewrite join_cons_gen by discriminate. rewrite H1 by exact Hw. rewrite IH; [reflexivity|discriminate|exact Hl].
Qed.
Lemma colon_path_split name path : colon_path name path <-> path = split_on ":"%char name.
Proof.
  split.
  - intros (H1 & -> & H3). symmetry. apply join_split_gen; assumption.
  - intros ->. split; [apply split_ne|]. split; [symmetry; apply split_join_gen|apply split_words].
Qed.
Lemma split_inj a b : split_on ":"%char a = split_on ":"%char b -> a = b.
Proof. intros H. rewrite <- (split_join_gen ":"%char a), H. apply split_join_gen. Qed.

(** ** All tasks added *)
Definition row (tasks : taskmap) (names : list str) (path : list str) (i : list str * str) : Prop :=
  (exists name t, name ∈ names /\ tasks !! name = Some t /\ path = split_on ":"%char name /\ i = (get_all_aliases t, t_desc t)) \/
  ((exists name, name ∈ names /\ is_Some (tasks !! name) /\ path `prefix_of` split_on ":"%char name) /\
   (forall name, name ∈ names -> is_Some (tasks !! name) -> path <> split_on ":"%char name) /\ i = blank).
Definition add_task (tasks : taskmap) (n : node) (name : str) : node :=
  match tasks !! name with Some t => add_node (split_on ":"%char name) t n | None => n end.

Lemma row_fun tasks names path i j : row tasks names path i -> row tasks names path j -> i = j.
Proof.
  intros [(n & t & H1 & H2 & H3 & ->) | (H1 & H2 & ->)] [(n' & t' & G1 & G2 & G3 & ->) | (G1 & G2 & ->)]; [|exfalso..|reflexivity].
  - assert (n = n') by (apply split_inj; congruence). subst. congruence.
  - apply (G2 n H1); [eexists; exact H2|exact H3].
  - apply (H2 n' G1); [eexists; exact G2|exact G3].
Qed.
Lemma build_get tasks names path : path <> [] ->
  forall i, get (fold_left (add_task tasks) names fresh_node) path = Some i <-> row tasks names path i.
Proof.
  intros Hp. induction names as [|name names IH] using rev_ind; intros i.
  - simpl. rewrite get_fresh. destruct path; [congruence|]. split; [discriminate|]. intros [(n & t & H & _) | ((n & H & _) & _)]; inversion H.
  - rewrite fold_left_app. simpl. unfold add_task at 1. set (n := fold_left (add_task tasks) names fresh_node) in *. clearbody n.
    assert (Hsub : forall m, m ∈ names -> m ∈ names ++ [name]) by (intros m Hm; apply elem_of_app; left; exact Hm).
    assert (Hlast : name ∈ names ++ [name]) by (apply elem_of_app; right; constructor).
    assert (Hinv : forall m, m ∈ names ++ [name] -> m ∈ names \/ m = name) by (intros m Hm; apply elem_of_app in Hm as [Hm|Hm]; [auto|apply elem_of_list_singleton in Hm; auto]).
    destruct (tasks !! name) as [t|] eqn:Et.
    + destruct (decide (path = split_on ":"%char name)) as [->|Hne].
      * rewrite get_add_self by exact Hp. split.
        -- intros [= <-]. left. exists name, t. auto.
        -- intros Hr. f_equal. apply (row_fun tasks (names ++ [name]) (split_on ":"%char name)); [|exact Hr]. left. exists name, t. auto.
      * rewrite get_add_other by assumption. destruct (get n path) as [j|] eqn:Ej.
        -- assert (Hj : row tasks (names ++ [name]) path j).
           { destruct (proj1 (IH j) eq_refl) as [(m & t' & H1 & H2 & H3 & H4) | ((m & H1 & H2 & H3) & H4 & H5)]; [left; exists m, t'; auto|]. right. split; [exists m; auto|]. split; [|exact H5].
             intros k Hk Hs. apply Hinv in Hk as [Hk | ->]; auto. }
           split; [intros [= <-]; exact Hj|intros Hr; f_equal; exact (row_fun _ _ _ _ _ Hj Hr)].
        -- assert (Hno : forall j, ~ row tasks names path j) by (intros j Hj; apply IH in Hj; discriminate Hj).
           assert (Hno1 : forall m, m ∈ names -> is_Some (tasks !! m) -> path <> split_on ":"%char m).
           { intros m Hm [t' Ht'] ->. apply (Hno (get_all_aliases t', t_desc t')). left. exists m, t'. auto. }
           case_bool_decide as Hpre.
           ++ assert (Hb : row tasks (names ++ [name]) path blank).
              { right. split; [exists name; split; [exact Hlast|split; [eexists; exact Et|exact Hpre]]|]. split; [|reflexivity].
                intros k Hk Hs. apply Hinv in Hk as [Hk | ->]; [apply Hno1; assumption|exact Hne]. }
              split; [intros [= <-]; exact Hb|intros Hr; f_equal; exact (row_fun _ _ _ _ _ Hb Hr)].
           ++ split; [discriminate|]. intros [(m & t' & H1 & H2 & H3 & H4) | ((m & H1 & H2 & H3) & H4 & H5)].
              ** apply Hinv in H1 as [H1 | ->]; [|congruence]. exfalso. apply (Hno1 m H1); [eexists; exact H2|exact H3].
              ** apply Hinv in H1 as [H1 | ->]; [|contradiction]. exfalso. apply (Hno blank). right. split; [exists m; auto|]. split; [exact Hno1|reflexivity].
    + rewrite IH. unfold row. split; (intros [(m & t' & H1 & H2 & H3 & H4) | ((m & H1 & H2 & H3) & H4 & H5)]; [left; exists m, t'|right]).
      * auto.
      * split; [exists m; auto|]. split; [|exact H5]. intros k Hk Hs. apply Hinv in Hk as [Hk | ->]; [auto|]. rewrite Et in Hs. destruct Hs as [? Hs]. discriminate Hs.
      * apply Hinv in H1 as [H1 | ->]; [auto|congruence].
      * split; [|split; [auto|exact H5]]. apply Hinv in H1 as [H1 | ->]; [exists m; auto|]. rewrite Et in H2. destruct H2 as [? H2]. discriminate H2.
Qed.
Lemma build_wf tasks names : wf (fold_left (add_task tasks) names fresh_node).
Proof.
  induction names as [|name names IH] using rev_ind; [exact wf_fresh|]. rewrite fold_left_app. simpl. unfold add_task at 1.
  destruct (tasks !! name); [apply add_wf; exact IH|exact IH].
Qed.

(** ** What is printed *)
Definition forest (n : node) : list shown := in_order (map (fun kc => (fst kc, build_tree (fst kc) (snd kc))) (children n)).
Lemma build_tree_eq name n : build_tree name n = Shown name (fst (info n)) (snd (info n)) (forest n).
Proof. destruct n. reflexivity. Qed.
Lemma omap_step {A B} (f : A -> option B) (x : A) (l : list A) : omap f (x :: l) = match f x with Some y => y :: omap f l | None => omap f l end.
Proof. reflexivity. Qed.
Lemma omap_ext_in {A B} (f g : A -> option B) (l : list A) : (forall x, x ∈ l -> f x = g x) -> omap f l = omap g l.
Proof.
  induction l as [|x l IH]; intros H; [reflexivity|]. rewrite !omap_step, (H x) by constructor. rewrite IH by (intros y Hy; apply H; constructor; exact Hy). reflexivity.
Qed.
Lemma forest_eq n : forest n = omap (fun k => build_tree k <$> kid k (children n)) (sort_strs (map fst (children n))).
Proof. unfold forest, in_order. rewrite keys_map. apply omap_ext_in. intros k _. apply kid_map. Qed.
Lemma forest_labels n : map label (forest n) = sort_strs (map fst (children n)).
Proof.
  rewrite forest_eq. assert (H : forall k, k ∈ sort_strs (map fst (children n)) -> is_Some (kid k (children n))).
  { intros k Hk. apply kid_some. rewrite <- sort_strs_perm. exact Hk. }
  induction (sort_strs _) as [|k l IH]; [reflexivity|]. rewrite omap_step. destruct (H k ltac:(constructor)) as [c Hc]. rewrite Hc. cbn [fmap option_fmap option_map map].
  rewrite IH by (intros j Hj; apply H; constructor; exact Hj). f_equal. rewrite build_tree_eq. reflexivity.
Qed.
Lemma forest_elem n x : NoDup (map fst (children n)) ->
  x ∈ forest n <-> exists k c, kid k (children n) = Some c /\ x = build_tree k c.
Proof.
  intros Hn. rewrite forest_eq, elem_of_list_omap. split.
  - intros (k & _ & H). apply fmap_Some in H as (c & Hc & ->). exists k, c. auto.
  - intros (k & c & Hc & ->). exists k. split; [|rewrite Hc; reflexivity]. rewrite sort_strs_perm. apply kid_some. eexists; exact Hc.
Qed.

Lemma node_sub_ind (P : node -> Prop) : (forall n, (forall k c, kid k (children n) = Some c -> P c) -> P n) -> forall n, P n.
Proof.
  intros H n. induction n as [d a l IH] using node_ind'. apply H. simpl. intros k c Hk. apply kid_elem in Hk. rewrite Forall_forall in IH. exact (IH _ Hk).
Qed.

Lemma forest_alphabetical n : wf n -> alphabetical (forest n).
Proof.
  induction n as [n IH] using node_sub_ind. intros Hw. pose proof (Hw [] n eq_refl) as Hn. constructor.
  - rewrite forest_labels. apply sort_strs_sorted.
  - rewrite forest_labels. rewrite sort_strs_perm. exact Hn.
  - intros x Hx. apply forest_elem in Hx as (k & c & Hc & ->); [|exact Hn]. rewrite build_tree_eq. simpl. apply (IH k c Hc). exact (wf_kid _ _ _ Hw Hc).
Qed.

Lemma lines_of_eq n a d b : lines_of (Shown n a d b) = ([n], (a, d)) :: map (fun r => (n :: fst r, snd r)) (lines b).
Proof. simpl. do 2 f_equal. unfold lines. induction b as [|x b IH]; [reflexivity|]. simpl. rewrite <- IH. reflexivity. Qed.
Lemma lines_elem l p i : (p, i) ∈ lines l <-> exists x, x ∈ l /\ (p, i) ∈ lines_of x.
Proof.
  unfold lines. rewrite elem_of_list_In, in_concat. split.
  - intros (r & Hr & Hin). apply in_map_iff in Hr as (x & <- & Hx). exists x. rewrite !elem_of_list_In. auto.
  - intros (x & Hx & Hin). exists (lines_of x). rewrite !elem_of_list_In in *. split; [apply in_map; exact Hx|exact Hin].
Qed.
Lemma forest_lines n p i : wf n -> (p, i) ∈ lines (forest n) <-> p <> [] /\ get n p = Some i.
Proof.
  revert p. induction n as [n IH] using node_sub_ind. intros p Hw. pose proof (Hw [] n eq_refl) as Hn. rewrite lines_elem. split.
  - intros (x & Hx & Hin). apply forest_elem in Hx as (k & c & Hc & ->); [|exact Hn]. rewrite build_tree_eq, lines_of_eq in Hin.
    apply elem_of_cons in Hin as [[= -> ->] | Hin].
    + split; [discriminate|]. rewrite get_cons, Hc. unfold get. simpl. destruct (info c); reflexivity.
    + apply elem_of_list_In, in_map_iff in Hin as ([q j] & [= <- <-] & Hin). apply elem_of_list_In in Hin. apply (IH k c Hc q (wf_kid _ _ _ Hw Hc)) in Hin as [_ Hin].
      split; [discriminate|]. rewrite get_cons, Hc. exact Hin.
  - intros [Hp Hg]. destruct p as [|k p]; [congruence|]. rewrite get_cons in Hg. destruct (kid k (children n)) as [c|] eqn:Hc; [|discriminate Hg].
    exists (build_tree k c). split; [apply forest_elem; [exact Hn|]; exists k, c; auto|]. rewrite build_tree_eq, lines_of_eq. destruct p as [|k' p].
    + unfold get in Hg. simpl in Hg. injection Hg as <-. destruct (info c). constructor.
    + constructor. apply elem_of_list_In, in_map_iff. exists (k' :: p, i). split; [reflexivity|]. apply elem_of_list_In. apply (IH k c Hc _ (wf_kid _ _ _ Hw Hc)). split; [discriminate|exact Hg].
Qed.

Lemma lines_of_head x p i : (p, i) ∈ lines_of x -> exists q, p = label x :: q.
Proof.
  destruct x as [n a d b]. rewrite lines_of_eq. intros H. apply elem_of_cons in H as [[= -> ->] | H]; [exists []; reflexivity|].
  apply elem_of_list_In, in_map_iff in H as ([q j] & [= <- <-] & _). exists q. reflexivity.
Qed.
Lemma lines_path_ne l p i : (p, i) ∈ lines l -> p <> [].
Proof. intros H. apply lines_elem in H as (x & _ & H). apply lines_of_head in H as [q ->]. discriminate. Qed.
(** Every path is on one line. *)
Lemma alphabetical_once l : alphabetical l -> NoDup (map fst (lines l)).
Proof.
  induction 1 as [l _ Hd _ Hb]. induction l as [|x l IHl]; [constructor|].
  unfold lines. simpl. rewrite map_app. fold (lines l). simpl in Hd. inversion Hd as [|? ? Hx Hd']; subst. apply NoDup_app. repeat split.
  - pose proof (Hb x (elem_of_list_here _ _)) as Hr. clear -Hr. destruct x as [n a d b]. rewrite lines_of_eq. simpl in *. rewrite map_map. simpl. constructor.
    + intros Hin. apply elem_of_list_In, in_map_iff in Hin as ([q j] & [= E] & Hin). subst q. apply elem_of_list_In in Hin. exact (lines_path_ne _ _ _ Hin eq_refl).
    + rewrite <- (map_map fst (cons n)). apply (NoDup_fmap_2 (cons n)). exact Hr.
  - intros p Hp Hq. apply elem_of_list_In, in_map_iff in Hp as ([p' i] & E1 & Hp). simpl in E1. subst p'.
    apply elem_of_list_In, in_map_iff in Hq as ([p' j] & E2 & Hq). simpl in E2. subst p'. apply elem_of_list_In in Hp, Hq.
    apply lines_elem in Hq as (y & Hy & Hq). apply Hx.
    pose proof (lines_of_head _ _ _ Hp) as (q1 & E1). pose proof (lines_of_head _ _ _ Hq) as (q2 & E2). rewrite E1 in E2. injection E2 as E2 _. rewrite E2.
    apply elem_of_list_In, in_map, elem_of_list_In. exact Hy.
  - apply IHl; [exact Hd'|]. intros y Hy. apply Hb. constructor. exact Hy.
Qed.

(** Trees holding the same print the same. *)
Lemma forest_determined n m : wf n -> wf m -> (forall p, p <> [] -> get n p = get m p) -> forest n = forest m.
Proof.
  revert m. induction n as [n IH] using node_sub_ind. intros m Hn Hm Hg. rewrite !forest_eq.
  assert (Hk : forall k, match kid k (children n), kid k (children m) with
                         | Some c, Some c' => info c = info c' /\ forall p, p <> [] -> get c p = get c' p
                         | None, None => True | _, _ => False end).
  { intros k. pose proof (Hg [k] ltac:(discriminate)) as H0. rewrite !get_cons in H0.
    destruct (kid k (children n)) as [c|] eqn:E1, (kid k (children m)) as [c'|] eqn:E2; try discriminate H0; [|exact I]. unfold get in H0. simpl in H0. injection H0 as H0.
    split; [exact H0|]. intros p Hp. pose proof (Hg (k :: p) ltac:(discriminate)) as H1. rewrite !get_cons, E1, E2 in H1. exact H1. }
  assert (Hs : sort_strs (map fst (children n)) = sort_strs (map fst (children m))).
  { apply sort_strs_unique. apply NoDup_Permutation; [exact (Hn [] n eq_refl)|exact (Hm [] m eq_refl)|]. intros k. rewrite <- !kid_some. specialize (Hk k).
    destruct (kid k (children n)), (kid k (children m)); try contradiction; split; intros [? ?]; try discriminate; eexists; reflexivity. }
  rewrite <- Hs. apply omap_ext_in. intros k _. specialize (Hk k). destruct (kid k (children n)) as [c|] eqn:E1, (kid k (children m)) as [c'|] eqn:E2; try contradiction; [|reflexivity].
  simpl. f_equal. rewrite !build_tree_eq. destruct Hk as [-> Hk]. f_equal. apply (IH k c E1); [exact (wf_kid _ _ _ Hn E1)|exact (wf_kid _ _ _ Hm E2)|exact Hk].
Qed.

(** ** The list command *)
Lemma run_list_eq tasks order : run_list tasks order = if decide (tasks = ∅) then None else Some (forest (fold_left (add_task tasks) order fresh_node)).
Proof. reflexivity. Qed.
Lemma row_ne tasks names path i : row tasks names path i -> path = [] -> exists name, name ∈ names /\ is_Some (tasks !! name).
Proof. intros [(n & t & H1 & H2 & _) | ((n & H1 & H2 & _) & _)] _; exists n; [split; [exact H1|eexists; exact H2]|auto]. Qed.
Theorem list_lines tasks order out : iteration_order tasks order -> run_list tasks order = Some out ->
  forall path i, (path, i) ∈ lines out <->
  (exists name t, tasks !! name = Some t /\ colon_path name path /\ i = (get_all_aliases t, t_desc t)) \/
  ((exists name full, is_Some (tasks !! name) /\ colon_path name full /\ on_the_way path full) /\
   (forall name, is_Some (tasks !! name) -> ~ colon_path name path) /\ i = ([], [])).
Proof.
  intros Ho. rewrite run_list_eq. case_decide; [discriminate|]. intros [= <-] path i. rewrite forest_lines by apply build_wf.
  pose proof (iteration_order_elem _ _ Ho) as He. split.
  - intros [Hp Hg]. apply build_get in Hg as [(n & t & H1 & H2 & H3 & H4) | ((n & H1 & H2 & H3) & H4 & H5)]; [| |exact Hp].
    + left. exists n, t. split; [exact H2|]. split; [apply colon_path_split; exact H3|exact H4].
    + right. split; [exists n, (split_on ":"%char n); split; [exact H2|]; split; [apply colon_path_split; reflexivity|]; split; [exact Hp|exact H3]|].
      split; [|exact H5]. intros m Hm Hc. apply colon_path_split in Hc. apply (H4 m); [apply He; exact Hm|exact Hm|exact Hc].
  - intros [(n & t & H1 & H2 & H3) | ((n & full & H1 & H2 & H3) & H4 & H5)].
    + pose proof (proj1 H2) as Hp. apply colon_path_split in H2. split; [exact Hp|]. apply build_get; [exact Hp|]. left. exists n, t. split; [apply He; eexists; exact H1|auto].
    + destruct H3 as [Hp H3]. apply colon_path_split in H2. subst full. split; [exact Hp|]. apply build_get; [exact Hp|]. right. split; [exists n; split; [apply He; exact H1|auto]|].
      split; [|exact H5]. intros m _ Hm Hc. apply (H4 m Hm). apply colon_path_split. exact Hc.
Qed.
Theorem list_alphabetical tasks order out : run_list tasks order = Some out -> alphabetical out.
Proof. rewrite run_list_eq. case_decide; [discriminate|]. intros [= <-]. apply forest_alphabetical, build_wf. Qed.
Theorem list_once tasks order out : run_list tasks order = Some out -> NoDup (map fst (lines out)).
Proof. intros H. apply alphabetical_once. exact (list_alphabetical tasks order out H). Qed.
Theorem list_order tasks o1 o2 : iteration_order tasks o1 -> iteration_order tasks o2 -> run_list tasks o1 = run_list tasks o2.
Proof.
  intros H1 H2. rewrite !run_list_eq. case_decide; [reflexivity|]. f_equal. apply forest_determined; [apply build_wf..|]. intros p Hp.
  apply option_eq. intros i. rewrite !build_get by exact Hp. pose proof (iteration_order_elem _ _ H1) as E1. pose proof (iteration_order_elem _ _ H2) as E2.
  assert (E : forall n, n ∈ o1 <-> n ∈ o2) by (intros n; rewrite E1, E2; reflexivity). unfold row. setoid_rewrite E. reflexivity.
Qed.
Theorem list_nonempty tasks order : iteration_order tasks order ->
  (run_list tasks order = None <-> tasks = ∅) /\ (forall out, run_list tasks order = Some out -> out <> []).
Proof.
  intros Ho. split; [rewrite run_list_eq; case_decide; split; congruence|]. intros out Hout ->.
  assert (Hne : tasks <> ∅) by (rewrite run_list_eq in Hout; case_decide; congruence).
  apply map_choose in Hne as (n & t & Hn).
  assert (Hin : (split_on ":"%char n, (get_all_aliases t, t_desc t)) ∈ lines []).
  { apply (list_lines tasks order [] Ho Hout). left. exists n, t. split; [exact Hn|]. split; [apply colon_path_split; reflexivity|reflexivity]. }
  inversion Hin.
Qed.
