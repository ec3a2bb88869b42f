From Verif Require Import Base StrOrder Types_Model Valid_Model Path_Model Path_Proof Include_Model Vars_Proof Run_Model Cli_Model Cli_Spec.

(** ** Finder *)
Lemma names_agree : babfile_names = documented_names.
Proof. reflexivity. Qed.
Lemma name_proper n : n ∈ documented_names -> Path_Proof.proper n.
Proof.
  assert (H : Forall Path_Proof.proper documented_names).
  { unfold documented_names, Path_Proof.proper. repeat constructor; try discriminate;
      intros Hin; apply elem_of_list_In in Hin; revert Hin; apply (fun (b : bool) => @id); vm_compute; intuition discriminate. }
  intros Hn. exact (proj1 (Forall_forall _ _) H n Hn).
Qed.

Lemma walk_name d n : Path_Proof.proper n -> walk d n = n :: d.
Proof.
  intros (H1 & H2 & H3 & H4). unfold walk. rewrite split_plain by exact H4. simpl. unfold walk_step.
  repeat case_decide; naive_solver.
Qed.
Lemma join_name d n : Forall Path_Proof.proper d -> Path_Proof.proper n -> join2 (spelled d) n = spelled (n :: d).
Proof. intros Hd Hn. rewrite join_place by reflexivity. rewrite spelled_place by exact Hd. rewrite walk_name by exact Hn. reflexivity. Qed.

Lemma join_snoc l n : l <> [] -> join_with [slash] (l ++ [n]) = join_with [slash] l ++ slash :: n.
Proof.
  induction l as [|a l IH]; [congruence|]. intros _. destruct l as [|b l]; [reflexivity|].
  change (join_with [slash] ((a :: b :: l) ++ [n])) with (a ++ [slash] ++ join_with [slash] ((b :: l) ++ [n])).
  rewrite IH by discriminate. change (join_with [slash] (a :: b :: l)) with (a ++ [slash] ++ join_with [slash] (b :: l)).
  rewrite <- !app_assoc. reflexivity.
Qed.
Lemma dir_spelled d : Forall Path_Proof.proper d -> dir (spelled d) = spelled (tail d).
Proof.
  intros Hd. destruct d as [|n d]; [reflexivity|]. apply Forall_cons in Hd as [Hn Hd]. simpl tail.
  destruct Hn as (_ & _ & _ & Hn).
  assert (E : spelled (n :: d) = (match d with [] => [] | _ => spelled d end) ++ slash :: n).
  { unfold spelled. simpl rev. destruct d as [|m d]; [reflexivity|]. set (l := rev (m :: d)).
    assert (Hl : l <> []). { unfold l. simpl. destruct (rev d); discriminate. } clearbody l.
    change (slash :: join_with [slash] (l ++ [n]) = slash :: join_with [slash] l ++ slash :: n). f_equal. apply join_snoc. exact Hl. }
  rewrite E. rewrite dir_place; [|exact Hn|destruct d; reflexivity]. destruct d; [reflexivity|]. rewrite spelled_place by exact Hd. reflexivity.
Qed.

Lemma try_names_spec stat d names : Forall Path_Proof.proper d -> Forall Path_Proof.proper names ->
  match try_names stat (spelled d) names with
  | Some p => exists before n after, names = before ++ n :: after /\ p = spelled (n :: d) /\ stat p = true /\
      forall m, m ∈ before -> stat (spelled (m :: d)) = false
  | None => forall n, n ∈ names -> stat (spelled (n :: d)) = false
  end.
Proof.
  intros Hd. induction names as [|n names IH]; intros Hn; cbn [try_names]; [intros n Hn'; inversion Hn'|].
  apply Forall_cons in Hn as [Hn Hns]. rewrite join_name by assumption. destruct (stat (spelled (n :: d))) eqn:E.
  - exists [], n, names. split; [reflexivity|]. split; [reflexivity|]. split; [exact E|]. intros m Hm. inversion Hm.
  - specialize (IH Hns). destruct (try_names stat (spelled d) names).
    + destruct IH as (b & m & a & -> & -> & H1 & H2). exists (n :: b), m, a. split; [reflexivity|]. split; [reflexivity|]. split; [exact H1|].
      intros k Hk. apply elem_of_cons in Hk as [-> | Hk]; auto.
    + intros k Hk. apply elem_of_cons in Hk as [-> | Hk]; auto.
Qed.

Lemma above_refl d : above d d.
Proof. exists []. reflexivity. Qed.
Lemma above_cons n d' d : above d' d -> above d' (n :: d).
Proof. intros [k ->]. exists (n :: k). reflexivity. Qed.
Lemma above_inv n d' d : above d' (n :: d) -> d' = n :: d \/ above d' d.
Proof. intros [[|x k] H]; [left; symmetry; exact H|]. injection H as -> ->. right. exists k. reflexivity. Qed.
Lemma above_antisym (a b : list str) : above a b -> above b a -> a = b.
Proof.
  intros [k ->] [j Hj]. assert (length a = length (j ++ k ++ a)) by congruence. rewrite !app_length in H.
  destruct k; [reflexivity|simpl in H; lia].
Qed.
Lemma above_length (a b : list str) : above a b -> length a <= length b.
Proof. intros [k ->]. rewrite app_length. lia. Qed.

Lemma find_loop_spec stat d : Forall Path_Proof.proper d -> forall fuel, length d < fuel ->
  match find_loop fuel stat (spelled d) with
  | Found p => nearest stat d p
  | NotFound => forall d', above d' d -> no_babfile_in stat d'
  | OutOfFuel => False
  end.
Proof.
  induction d as [|n d IH]; intros Hd [|fuel] Hf; simpl in Hf; try lia; cbn [find_loop];
    pose proof (try_names_spec stat _ documented_names Hd (proj2 (Forall_forall _ _) name_proper)) as Ht;
    rewrite names_agree; destruct (try_names stat (spelled _) documented_names) as [p|].
  - destruct Ht as (b & n & a & H1 & H2 & H3 & H4). exists [], b, n, a. split; [apply above_refl|]. repeat (split; [assumption|]).
    intros d'' H5 H6 H7. destruct H7. apply above_antisym; assumption.
  - rewrite decide_True by (rewrite dir_spelled by exact Hd; reflexivity).
    intros d' [k Hk]. destruct k; [|discriminate]. simpl in Hk. subst d'. intros m Hm. exact (Ht m Hm).
  - destruct Ht as (b & m & a & H1 & H2 & H3 & H4). exists (n :: d), b, m, a. split; [apply above_refl|]. repeat (split; [assumption|]).
    intros d'' H5 H6 H7. destruct H7. apply above_antisym; assumption.
  - rewrite dir_spelled by exact Hd. simpl tail. pose proof (proj1 (Forall_cons _ _ _) Hd) as [Hn Hd'].
    rewrite decide_False; [|intros E; apply spelled_inj in E; [|assumption..]; apply (f_equal length) in E; simpl in E; lia].
    specialize (IH Hd' fuel ltac:(lia)). destruct (find_loop fuel stat (spelled d)) as [p| |]; [| |exact IH].
    + destruct IH as (d' & b & m & a & H1 & H2 & H3 & H4 & H5 & H6). exists d', b, m, a. split; [apply above_cons, H1|]. repeat (split; [assumption|]).
      intros d'' G1 G2 G3. apply above_inv in G1 as [-> | G1]; [|apply H6; assumption]. intros k Hk. exact (Ht k Hk).
    + intros d' Hd''. apply above_inv in Hd'' as [-> | H]; [|apply IH; exact H]. intros k Hk. exact (Ht k Hk).
Qed.

Lemma spelled_length d : Forall Path_Proof.proper d -> length d <= length (spelled d).
Proof.
  intros Hd. unfold spelled. simpl. rewrite <- (rev_length d). assert (Hr : Forall Path_Proof.proper (rev d)) by (rewrite Forall_forall in *; intros x Hx; apply Hd; rewrite elem_of_list_In in *; apply in_rev; exact Hx).
  revert Hr. generalize (rev d). clear. intros l. induction l as [|a l IH]; intros Hl; simpl; [lia|].
  apply Forall_cons in Hl as [(H1 & _) Hl]. specialize (IH Hl). destruct a; [congruence|]. destruct l; simpl in *; [lia|]. rewrite app_length. simpl in *. lia.
Qed.
Theorem find_babfile_spec stat cwd : is_abs cwd = true -> clean cwd = cwd ->
  match find_babfile stat cwd with
  | Found p => nearest stat (place_of cwd) p
  | NotFound => forall d', above d' (place_of cwd) -> no_babfile_in stat d'
  | OutOfFuel => False
  end.
Proof.
  intros Ha Hc. unfold find_babfile. rewrite clean_place in Hc by exact Ha.
  pose proof (find_loop_spec stat _ (place_proper cwd) (3 + length cwd)) as H. rewrite Hc in H. apply H.
  pose proof (spelled_length _ (place_proper cwd)) as Hl. rewrite Hc in Hl. lia.
Qed.
Lemma upto_abs cwd : is_abs cwd = true -> is_abs (upto_last_slash cwd) = true /\ length (upto_last_slash cwd) <= length cwd.
Proof.
  unfold upto_last_slash. rewrite <- (rev_involutive cwd). set (r := rev cwd). clearbody r. clear cwd. rewrite rev_involutive.
  induction r as [|c r IH]; intros Ha; [discriminate Ha|]. cbn [span]. case_bool_decide as Hc; cbn [negb].
  - simpl. split; [exact Ha|lia].
  - destruct r as [|c' r]. { simpl in Ha. rewrite bool_decide_eq_true in Ha. congruence. }
    assert (Ha' : is_abs (rev (c' :: r)) = true).
    { simpl in Ha |- *. destruct (rev r ++ [c']) eqn:Er; [destruct (rev r); discriminate Er|]. exact Ha. }
    specialize (IH Ha') as [IH1 IH2]. destruct (span _ (c' :: r)) as [u v]. cbn [snd] in *. split; [exact IH1|].
    change (rev (c :: c' :: r)) with (rev (c' :: r) ++ [c]). rewrite app_length. simpl. simpl in IH2. lia.
Qed.
Lemma place_length p : length (place_of p) <= S (length p).
Proof.
  unfold place_of, walk. assert (H : forall l cur, length (fold_left walk_step l cur) <= length cur + length l).
  { induction l as [|w l IH]; intros cur; simpl; [lia|]. specialize (IH (walk_step cur w)).
    assert (length (walk_step cur w) <= S (length cur)). { unfold walk_step. repeat case_decide; simpl; try lia; destruct cur; simpl; lia. } lia. }
  specialize (H (split_on slash p) []). simpl in H.
  assert (length (split_on slash p) <= S (length p)).
  { clear H. induction p as [|c p IH]; simpl; [lia|]. case_decide; simpl; [lia|]. destruct (split_on slash p); simpl in *; lia. }
  lia.
Qed.
Lemma find_loop_S fuel stat d : find_loop (S fuel) stat d =
  match try_names stat d babfile_names with
  | Some p => Found p
  | None => if decide (dir d = d) then NotFound else find_loop fuel stat (dir d)
  end.
Proof. reflexivity. Qed.
(** The search also ends from a directory that is not written cleanly. *)
Theorem find_babfile_ends stat cwd : is_abs cwd = true -> find_babfile stat cwd <> OutOfFuel.
Proof.
  intros Ha E. unfold find_babfile in E. change (3 + length cwd) with (S (S (S (length cwd)))) in E. rewrite find_loop_S in E.
  destruct (try_names stat cwd babfile_names); [discriminate E|]. case_decide; [discriminate E|].
  destruct (upto_abs cwd Ha) as [Hu1 Hu2].
  pose proof (find_loop_spec stat _ (place_proper (upto_last_slash cwd)) (S (S (length cwd)))) as Hf.
  unfold dir in E. rewrite clean_place in E by exact Hu1.
  rewrite E in Hf. apply Hf. pose proof (place_length (upto_last_slash cwd)). lia.
Qed.

Lemma nearest_some stat d p : nearest stat d p -> ~ (forall d', above d' d -> no_babfile_in stat d').
Proof.
  intros (d' & b & n & a & H1 & H2 & -> & H4 & _) Hn. specialize (Hn d' H1 n). rewrite H4 in Hn. discriminate Hn.
  rewrite H2. apply elem_of_app. right. constructor.
Qed.
Lemma above_total (a b d : list str) : above a d -> above b d -> above a b \/ above b a.
Proof.
  intros [x ->] [y Hy]. revert y Hy. induction x as [|c x IH]; intros y Hy; [right; exists y; exact Hy|].
  destruct y as [|e y]; [left; exists (c :: x); symmetry; exact Hy|]. injection Hy as -> Hy. exact (IH y Hy).
Qed.
Lemma nearest_unique stat d p q : nearest stat d p -> nearest stat d q -> p = q.
Proof.
  intros (d1 & b1 & n1 & a1 & H1 & H2 & -> & H4 & H5 & H6) (d2 & b2 & n2 & a2 & G1 & G2 & -> & G4 & G5 & G6).
  assert (E1 : n1 ∈ documented_names) by (rewrite H2; apply elem_of_app; right; constructor).
  assert (E2 : n2 ∈ documented_names) by (rewrite G2; apply elem_of_app; right; constructor).
  assert (d1 = d2).
  { destruct (decide (d1 = d2)) as [E|E]; [exact E|]. destruct (above_total _ _ _ H1 G1) as [Hab|Hab].
    - rewrite (H6 d2 G1 Hab ltac:(congruence) n2 E2) in G4. discriminate G4.
    - rewrite (G6 d1 H1 Hab ltac:(congruence) n1 E1) in H4. discriminate H4. }
  subst d2. rewrite H2 in G2. do 2 f_equal. clear -G2 H4 H5 G4 G5. revert b2 G2 G5. induction b1 as [|x b1 IH]; intros [|y b2] E; simpl in E; injection E as E1 E2 || idtac.
  - intros _. congruence.
  - intros G5. subst. rewrite (G5 y) in H4 by constructor. discriminate H4.
  - intros _. subst. rewrite (H5 n2) in G4 by constructor. discriminate G4.
  - intros G5. subst. apply (IH (fun m Hm => H5 m (elem_of_list_further _ _ _ Hm)) b2 E2). intros m Hm. apply G5. constructor. exact Hm.
Qed.

(** ** Suggestions *)
Lemma has_part_inside p s : has_part p s = true <-> inside p s.
Proof.
  induction s as [|c s IH]; cbn [has_part].
  - rewrite orb_false_r. split.
    + intros H. apply has_prefix_true in H as [r Hr]. exists [], r. exact Hr.
    + intros (x & y & H). destruct x; [|discriminate H]. destruct p; [reflexivity|discriminate H].
  - rewrite orb_true_iff, IH. split.
    + intros [H|(x & y & ->)]; [apply has_prefix_true in H as [r Hr]; exists [], r; exact Hr|]. exists (c :: x), y. reflexivity.
    + intros (x & y & H). destruct x as [|d x]; [left; apply has_prefix_true; exists y; exact H|]. injection H as -> ->. right. exists x, y. reflexivity.
Qed.
Lemma agreeing_matches a b : agreeing a b = matches a b.
Proof.
  unfold agreeing. revert b. induction a as [|c a IH]; intros b; [reflexivity|]. simpl length. cbn [seq List.filter matches].
  rewrite <- seq_shift. 
  assert (Hm : forall f (l : list nat), length (List.filter f (map S l)) = length (List.filter (fun i => f (S i)) l)).
  { intros f l. induction l as [|x l IHl]; [reflexivity|]. simpl. destruct (f (S x)); simpl; rewrite IHl; reflexivity. }
  destruct b as [|d b].
  - rewrite bool_decide_eq_false_2 by (intros [_ H]; discriminate H). rewrite Hm.
    assert (Hn : forall f (l : list nat), (forall i, f i = false) -> length (List.filter f l) = 0).
    { intros f l Hf. induction l as [|x l IHl]; [reflexivity|]. simpl. rewrite Hf. exact IHl. }
    apply Hn. intros i. apply bool_decide_eq_false_2. simpl. intros [[x H1] H2]. rewrite H1 in H2. discriminate H2.
  - simpl lookup. rewrite <- IH. case_decide as E.
    + subst d. rewrite bool_decide_eq_true_2 by (split; [eexists|]; reflexivity). simpl length. rewrite Hm. reflexivity.
    + rewrite bool_decide_eq_false_2 by (intros [_ H]; congruence). rewrite Hm. reflexivity.
Qed.
Lemma matches_nil a : matches a [] = 0.
Proof. destruct a; reflexivity. Qed.
Lemma similarity_alike a b k : alike a b k <-> similarity a b = k.
Proof.
  unfold similarity. split.
  - intros [E | Hn Hi | H1 H2].
    + rewrite decide_True by exact E. reflexivity.
    + rewrite decide_False by exact Hn. rewrite <- !has_part_inside in Hi. destruct Hi as [-> | ->]; rewrite ?orb_true_r; reflexivity.
    + rewrite decide_False by (intros ->; apply H1; exists [], []; rewrite app_nil_r; reflexivity).
      rewrite <- has_part_inside, not_true_iff_false in H1, H2. rewrite H1, H2. simpl. rewrite agreeing_matches.
      destruct a; [destruct b; discriminate H1|]. destruct b; [discriminate H2|]. reflexivity.
  - intros <-. case_decide as E; [constructor; exact E|]. destruct (has_part a b || has_part b a) eqn:Hp.
    + apply orb_true_iff in Hp. rewrite !has_part_inside in Hp. constructor; assumption.
    + apply orb_false_iff in Hp as [H1 H2]. apply not_true_iff_false in H1, H2. rewrite has_part_inside in H1, H2.
      replace (match a, b with [], _ | _, [] => 0 | _, _ => matches a b * 100 / Nat.max (length a) (length b) end)
        with (agreeing a b * 100 / Nat.max (length a) (length b)); [constructor; assumption|].
      rewrite agreeing_matches. destruct a; [destruct H1; exists [], b; reflexivity|]. destruct b; [destruct H2; exists []; eexists; reflexivity|]. reflexivity.
Qed.

Lemma matches_bound a b : matches a b <= length a.
Proof. revert b. induction a as [|c a IH]; intros [|d b]; simpl; try lia. specialize (IH b). case_decide; lia. Qed.
Lemma similarity_bound a b : similarity a b <= 100.
Proof.
  unfold similarity. case_decide; [lia|]. destruct (has_part a b || has_part b a); [lia|]. destruct a as [|c a]; [lia|]. destruct b as [|d b]; [lia|].
  apply Nat.div_le_upper_bound; [simpl; lia|]. pose proof (matches_bound (c :: a) (d :: b)). lia.
Qed.
Lemma best_unique lower target cands c d :
  best_of lower target cands c -> best_of lower target cands d -> c = d.
Proof.
  intros (H1 & k & H2 & H3 & H4) (G1 & j & G2 & G3 & G4). destruct (H4 d j G1 G2) as [A1 A2]. destruct (G4 c k H1 H2) as [B1 B2].
  assert (j = k) by lia. destruct (A2 ltac:(lia)) as [A3 A4]. destruct (B2 ltac:(lia)) as [B3 B4]. apply str_le_antisym; [apply A4|apply B4]; lia.
Qed.

Section Suggest.
Context (lower : str -> str) (target : str).
Local Notation score c := (similarity (lower target) (lower c)).
(** The best of the candidates seen, if any is good enough. *)
Definition seen_best (seen : list str) (st : str * nat) : Prop :=
  (st = ([], 0) /\ Forall (fun c => score c < 50) seen) \/
  (fst st ∈ seen /\ score (fst st) = snd st /\ 50 <= snd st /\
   Forall (fun d => score d <= snd st /\ (score d = snd st -> length (fst st) <= length d /\ (length d = length (fst st) -> str_le (fst st) d))) seen).
Lemma suggest_step_best seen c st : (forall d, d ∈ seen -> str_le d c) ->
  seen_best seen st -> seen_best (seen ++ [c]) (suggest_step lower (lower target) st c).
Proof.
  intros Hle. unfold suggest_step. destruct st as [best bs]. intros [[[= -> ->] Hf] | (H1 & H2 & H3 & H4)]; simpl in *.
  - destruct (decide (50 <= score c)) as [Hs|Hs].
    + rewrite (bool_decide_eq_true_2 _ Hs), (bool_decide_eq_true_2 (0 < score c)) by lia. simpl. right. simpl.
      split; [apply elem_of_app; right; constructor|]. split; [reflexivity|]. split; [exact Hs|]. apply Forall_app. split.
      * eapply Forall_impl; [exact Hf|]. intros d Hd. simpl in Hd. split; [lia|intros; lia].
      * constructor; [|constructor]. split; [lia|]. intros _. split; [lia|]. intros _. apply str_le_refl.
    + rewrite (bool_decide_eq_false_2 _ Hs). simpl. left. split; [reflexivity|]. apply Forall_app. split; [exact Hf|]. constructor; [lia|constructor].
  - assert (Hkeep : score c <= bs -> (score c = bs -> length best <= length c) -> seen_best (seen ++ [c]) (best, bs)).
    { intros G1 G2. right. simpl. split; [apply elem_of_app; left; exact H1|]. split; [exact H2|]. split; [exact H3|]. apply Forall_app. split; [exact H4|].
      constructor; [|constructor]. split; [exact G1|]. intros E. split; [exact (G2 E)|]. intros _. apply Hle. exact H1. }
    assert (Hnew : 50 <= score c -> bs < score c \/ (score c = bs /\ length c < length best) -> seen_best (seen ++ [c]) (c, score c)).
    { intros G0 G1. right. simpl. split; [apply elem_of_app; right; constructor|]. split; [reflexivity|]. split; [exact G0|]. apply Forall_app. split.
      - eapply Forall_impl; [exact H4|]. intros d [G2 G3]. split; [lia|]. intros E. assert (Hb : score d = bs) by lia. destruct (G3 Hb) as [G4 _]. split; lia.
      - constructor; [|constructor]. split; [lia|]. intros _. split; [lia|]. intros _. apply str_le_refl. }
    destruct (decide (50 <= score c)) as [Hs|Hs]; [rewrite (bool_decide_eq_true_2 _ Hs)|rewrite (bool_decide_eq_false_2 _ Hs); apply Hkeep; lia].
    simpl. case_bool_decide as G1; simpl; [apply Hnew; [exact Hs|left; exact G1]|].
    case_bool_decide as G2; simpl; [|apply Hkeep; lia]. case_bool_decide as G3; [apply Hnew; [exact Hs|right; split; assumption]|apply Hkeep; lia].
Qed.
Lemma suggest_fold l seen st : StronglySorted str_le (seen ++ l) -> seen_best seen st ->
  seen_best (seen ++ l) (fold_left (suggest_step lower (lower target)) l st).
Proof.
  revert seen st. induction l as [|c l IH]; intros seen st Hs Hb; simpl; [rewrite app_nil_r; exact Hb|].
  replace (seen ++ c :: l) with ((seen ++ [c]) ++ l) in * by (rewrite <- app_assoc; reflexivity). apply IH; [exact Hs|].
  apply suggest_step_best; [|exact Hb]. intros d Hd. clear -Hs Hd. rewrite <- app_assoc in Hs. simpl in Hs.
  induction seen as [|x seen IH]; [inversion Hd|]. simpl in Hs. inversion Hs as [|? ? Hs' Hf]; subst. apply elem_of_cons in Hd as [-> | Hd]; [|apply IH; assumption].
  rewrite Forall_forall in Hf. apply Hf. apply elem_of_app. right. constructor.
Qed.
Theorem find_similar_spec cands :
  (best_of lower target cands (find_similar lower target cands)) \/
  (find_similar lower target cands = [] /\ forall c k, c ∈ cands -> alike (lower target) (lower c) k -> k < 50).
Proof.
  unfold find_similar. destruct cands as [|c0 cands]; [right; split; [reflexivity|]; intros c k Hc; inversion Hc|]. set (l := c0 :: cands). clearbody l. clear c0 cands.
  assert (H : seen_best (sort_strs l) (fold_left (suggest_step lower (lower target)) (sort_strs l) ([], 0))).
  { apply (suggest_fold (sort_strs l) []); [apply sort_strs_sorted|]. left. split; [reflexivity|constructor]. }
  destruct (fold_left _ _ _) as [best bs]. destruct H as [[[= -> ->] Hf] | (H1 & H2 & H3 & H4)]; simpl in *.
  - right. split; [reflexivity|]. intros c k Hc Hk. apply similarity_alike in Hk as <-. rewrite Forall_forall in Hf. apply Hf. rewrite sort_strs_perm. exact Hc.
  - left. rewrite sort_strs_perm in H1. split; [exact H1|]. exists bs. split; [apply similarity_alike; exact H2|]. split; [exact H3|].
    intros d j Hd Hj. apply similarity_alike in Hj as <-. rewrite Forall_forall in H4. apply H4. rewrite sort_strs_perm. exact Hd.
Qed.
Theorem find_similar_order l1 l2 : l1 ≡ₚ l2 -> find_similar lower target l1 = find_similar lower target l2.
Proof.
  intros H. unfold find_similar. destruct l1, l2; [reflexivity|apply Permutation_length in H; discriminate H..|]. rewrite (sort_strs_unique _ _ H). reflexivity.
Qed.
End Suggest.

(** ** Completion *)
Lemma omap_entries {A} (get : str -> option A) (keep : str -> bool) (entry : str -> A -> str) (order : list str) :
  NoDup order -> (forall n, n ∈ order <-> is_Some (get n)) ->
  exists names, NoDup names /\ (forall n, n ∈ names <-> is_Some (get n) /\ keep n = true) /\
    Forall2 (fun n e => exists x, get n = Some x /\ e = entry n x) names
      (omap (fun n => match get n with Some x => if keep n then Some (entry n x) else None | None => None end) order).
Proof.
  intros Hd Hin. exists (List.filter keep order). split; [|split].
  - apply NoDup_ListNoDup, List.NoDup_filter, NoDup_ListNoDup. exact Hd.
  - intros n. rewrite elem_of_list_In, filter_In, <- elem_of_list_In, Hin. reflexivity.
  - assert (Hs : forall n, n ∈ order -> is_Some (get n)) by (intros n; apply Hin). clear Hin Hd. induction order as [|n order IH]; [constructor|].
    destruct (Hs n ltac:(constructor)) as [x Hx]. simpl. rewrite Hx. specialize (IH (fun m Hm => Hs m (elem_of_list_further _ _ _ Hm))).
    destruct (keep n); [constructor; [exists x; auto|exact IH]|exact IH].
Qed.
Lemma iteration_order_NoDup {A} (m : gmap str A) order : iteration_order m order -> NoDup order.
Proof. intros ->. apply NoDup_fst_map_to_list. Qed.

Theorem complete_entries r typed torder aorder :
  iteration_order (pr_tasks r) torder -> iteration_order (pr_aliases r) aorder ->
  exists names aliases lines1 lines2,
    complete_names (Some r) [] typed torder aorder ≡ₚ lines1 ++ lines2 /\
    NoDup names /\ (forall n, n ∈ names <-> is_Some (pr_tasks r !! n) /\ starts_with typed n) /\
    NoDup aliases /\ (forall a, a ∈ aliases <-> is_Some (pr_aliases r !! a) /\ starts_with typed a) /\
    Forall2 (fun n e => task_line n (description (pr_tasks r) n) e) names lines1 /\
    Forall2 (fun a e => exists n, pr_aliases r !! a = Some n /\ alias_line a n (description (pr_tasks r) n) e) aliases lines2.
Proof.
  intros Ht Ha.
  destruct (omap_entries (fun n => pr_tasks r !! n) (has_prefix typed) task_entry torder (iteration_order_NoDup _ _ Ht) (iteration_order_elem _ _ Ht)) as (names & N1 & N2 & N3).
  destruct (omap_entries (fun n => pr_aliases r !! n) (has_prefix typed) (alias_entry (pr_tasks r)) aorder (iteration_order_NoDup _ _ Ha) (iteration_order_elem _ _ Ha)) as (als & A1 & A2 & A3).
  eexists names, als, _, _. split; [apply sort_strs_perm|]. split; [exact N1|]. split; [intros n; rewrite N2; unfold starts_with; rewrite has_prefix_true; reflexivity|].
  split; [exact A1|]. split; [intros n; rewrite A2; unfold starts_with; rewrite has_prefix_true; reflexivity|]. split.
  - eapply Forall2_impl; [exact N3|]. intros n e (t & Hx & ->). unfold task_line, description, task_entry. rewrite Hx. destruct (t_desc t); [left|right]; split; auto; discriminate.
  - eapply Forall2_impl; [exact A3|]. intros a e (n & Hx & ->). exists n. split; [exact Hx|]. unfold alias_line, description, alias_entry.
    destruct (pr_tasks r !! n) as [t|]; [|left; auto]. destruct (t_desc t); [left|right]; split; auto; discriminate.
Qed.
Lemma omap_perm {A B} (f : A -> option B) (l1 l2 : list A) : l1 ≡ₚ l2 -> omap f l1 ≡ₚ omap f l2.
Proof.
  induction 1 as [|x l1 l2 _ IH|x y l|l1 l2 l3 _ IH1 _ IH2]; [reflexivity| | |etransitivity; eassumption].
  - simpl. destruct (f x); [constructor|]; exact IH.
  - simpl. destruct (f x), (f y); try reflexivity. apply perm_swap.
Qed.
Theorem complete_order r args typed t1 a1 t2 a2 :
  t1 ≡ₚ t2 -> a1 ≡ₚ a2 -> complete_names r args typed t1 a1 = complete_names r args typed t2 a2.
Proof.
  intros Ht Ha. unfold complete_names. destruct args; [|reflexivity]. destruct r as [r|]; [|reflexivity]. apply sort_strs_unique.
  apply Permutation_app; apply omap_perm; assumption.
Qed.
Theorem complete_sorted r args typed t a : StronglySorted str_le (complete_names r args typed t a).
Proof. unfold complete_names. destruct args; [|constructor]. destruct r; [apply sort_strs_sorted|constructor]. Qed.

(** ** Errors *)
Section GerrInd.
Context (P : gerr -> Prop) (H1 : forall s m, P (ESentinel s m)) (H2 : forall c m, P (EWrap c m None))
  (H3 : forall c m k, P k -> P (EWrap c m (Some k))) (H4 : forall l, Forall P l -> P (EValidation l)).
Fixpoint gerr_ind' (e : gerr) : P e :=
  match e with
  | ESentinel s m => H1 s m
  | EWrap c m None => H2 c m
  | EWrap c m (Some k) => H3 c m k (gerr_ind' k)
  | EValidation l => H4 l ((fix go l : Forall P l := match l with [] => Forall_nil_2 _ | x :: l' => Forall_cons_2 _ _ _ (gerr_ind' x) (go l') end) l)
  end.
End GerrInd.
Theorem errors_is_cancelled e : own_claims_only e -> errors_is Canceled e = true <-> cancelled e.
Proof.
  unfold own_claims_only, cancelled. induction e as [s m|c m|c m k IH|l IH] using gerr_ind'; intros Ho; simpl.
  - rewrite bool_decide_eq_true. split; [intros ->; exists m; constructor|]. intros [m' H]. inversion H; reflexivity.
  - rewrite (Ho c m None) by constructor. split; [discriminate|]. intros [m' H]. inversion H.
  - rewrite (Ho c m (Some k)) by constructor. simpl. rewrite IH by (intros c' m'' k' HH; apply (Ho c' m'' k'); constructor; exact HH).
    split; intros [m' H]; exists m'; [constructor; exact H|]. inversion H; assumption.
  - rewrite existsb_exists. rewrite Forall_forall in IH. split.
    + intros (x & Hx & Hc). apply elem_of_list_In in Hx. apply IH in Hc as [m' Hm]; [|exact Hx|intros c' m'' k' HH; apply (Ho c' m'' k'); econstructor; eassumption].
      exists m'. econstructor; eassumption.
    + intros [m' H]. inversion H as [| |? k ? Hk Hp]; subst. exists k. rewrite <- elem_of_list_In. split; [exact Hk|].
      apply IH; [exact Hk|intros c'' m'' k' HH; apply (Ho c'' m'' k'); econstructor; eassumption|]. exists m'. exact Hp.
Qed.
Lemma main_status r : fst (main_run r) = 0 \/ fst (main_run r) = 1.
Proof. unfold main_run. destruct r as [e|]; [|left; reflexivity]. destruct (errors_is Canceled e); [left|right]; reflexivity. Qed.
Theorem main_zero r : (forall e, r = Some e -> own_claims_only e) -> fst (main_run r) = 0 <-> (forall e, r = Some e -> cancelled e).
Proof.
  intros Ho. unfold main_run. destruct r as [e|]; simpl; [|split; [intros _ e [=]|reflexivity]]. pose proof (errors_is_cancelled e (Ho e eq_refl)) as H.
  destruct (errors_is Canceled e); simpl.
  - split; [|reflexivity]. intros _ e' [= <-]. apply H. reflexivity.
  - split; [discriminate|]. intros Hc. exfalso. discriminate (proj2 H (Hc e eq_refl)).
Qed.

Lemma main_reported e : own_claims_only e ->
  (cancelled e -> snd (main_run (Some e)) = []) /\
  (~ cancelled e -> forall l, e = EValidation l -> snd (main_run (Some e)) = map error_text l).
Proof.
  intros Ho. pose proof (errors_is_cancelled e Ho) as H. unfold main_run. split; [intros Hc; apply H in Hc; rewrite Hc; reflexivity|].
  intros Hc l ->. destruct (errors_is Canceled (EValidation l)); [destruct Hc; apply H; reflexivity|]. reflexivity.
Qed.
Lemma error_says : forall e, says e (error_text e).
Proof.
  fix IH 1. intros [s m|c m k|l]; [constructor|constructor|]. constructor. cbn [error_text].
  induction l as [|e l Hl]; [constructor|]. destruct l as [|e' l]; [constructor; apply IH|].
  cbn [map join_with]. apply (all_say_more e (error_text e) e' l); [apply IH|exact Hl].
Qed.
Lemma as_validation_carries e : match as_validation e with Some l => carries e l | None => forall l, ~ carries e l end.
Proof.
  revert e. fix IH 1. intros [s m|c m [k|]|l]; cbn [as_validation]; [intros l H; inversion H| |intros l H; inversion H|constructor].
  specialize (IH k). destruct (as_validation k); [constructor; exact IH|]. intros l H. inversion H; subst. eapply IH; eassumption.
Qed.
Lemma main_lines e : own_claims_only e -> ~ cancelled e ->
  (forall l, carries e l -> Forall2 says l (snd (main_run (Some e)))) /\
  ((forall l, ~ carries e l) -> exists m, says e m /\ snd (main_run (Some e)) = match m with [] => [] | _ => [m] end).
Proof.
  intros Ho Hc. pose proof (errors_is_cancelled e Ho) as H. unfold main_run.
  destruct (errors_is Canceled e); [destruct Hc; apply H; reflexivity|]. cbn [snd]. unfold handle_error.
  pose proof (as_validation_carries e) as Ha. split.
  - intros l Hl. assert (E : as_validation e = Some l) by (clear - Hl; induction Hl; [reflexivity|assumption]). rewrite E.
    clear. induction l; cbn [map]; constructor; [apply error_says|assumption].
  - intros Hn. destruct (as_validation e) as [l|]; [destruct (Hn l Ha)|]. exists (error_text e). split; [apply error_says|]. destruct (error_text e); reflexivity.
Qed.
Lemma run_status msg leaf e : (forall k, own_claims_only (leaf k)) -> (forall k, ~ cancelled (leaf k)) ->
  fst (main_run (Some (run_error msg leaf e))) = 0 <-> bottom e = RCancelled.
Proof.
  intros Ho Hc. unfold main_run. assert (Hl : forall k, errors_is Canceled (leaf k) = false).
  { intros k. apply not_true_iff_false. rewrite errors_is_cancelled by apply Ho. apply Hc. }
  assert (Hs : forall x : gerr, fst (if errors_is Canceled x then (0, []) else (1, handle_error x)) = 0 <-> errors_is Canceled x = true)
    by (intros x; destruct (errors_is Canceled x); simpl; split; congruence).
  rewrite Hs. clear Hs.
  induction e as [| | | | | | | | | | | | | | | | | |d k IH|d k IH|d k IH]; cbn [run_error bottom]; rewrite ?Hl; try (split; discriminate);
    [split; reflexivity|exact IH..].
Qed.

(** ** Modes *)
Theorem chosen_one f args : exists! m, chosen f args m.
Proof.
  destruct (decide (g_completion f = [])) as [E|E].
  - destruct (g_validate f) eqn:E1.
    + exists MValidate. split; [constructor; assumption|]. intros m H. inversion H; subst; congruence.
    + destruct (g_list f) eqn:E2.
      * exists MList. split; [constructor; assumption|]. intros m H. inversion H; subst; congruence.
      * destruct args as [|n rest].
        -- exists MInteractive. split; [constructor; assumption|]. intros m H. inversion H; subst; congruence.
        -- exists (MRun n). split; [constructor; assumption|]. intros m H. inversion H; subst; congruence.
  - exists MCompletion. split; [constructor; assumption|]. intros m H. inversion H; subst; congruence.
Qed.
Theorem cli_calls an f args m : chosen f args m ->
  match m with
  | MCompletion => fst (cli_run an f args) = if decide (g_completion f ∈ shells) then [CScript (g_completion f)] else []
  | MValidate | MList => fst (cli_run an f args) = CLoad (g_babfile f) :: match an_load an with None => [CShow] | Some _ => [] end
  | MRun n => cli_run an f args = ([CRun (g_dry f) (g_babfile f) n], an_run an n)
  | MInteractive =>
      fst (cli_run an f args) = CLoad (g_babfile f) ::
        match an_load an, an_pick an with
        | Some _, _ => []
        | None, inr (Some n) => [CPick; CRun (g_dry f) (g_babfile f) n]
        | None, _ => [CPick]
        end
  end.
Proof.
  unfold cli_run. intros H. destruct H as [f args H | f args H1 H2 | f args H1 H2 H3 | f n rest H1 H2 H3 | f H1 H2 H3].
  - destruct (g_completion f) as [|c s] eqn:E; [congruence|]. unfold run_completion. case_decide; reflexivity.
  - rewrite H1, H2. unfold run_load_show. destruct (an_load an); reflexivity.
  - rewrite H1, H2, H3. unfold run_load_show. destruct (an_load an); reflexivity.
  - rewrite H1, H2, H3. reflexivity.
  - rewrite H1, H2, H3. unfold run_interactive. destruct (an_load an); [reflexivity|]. destruct (an_pick an) as [e|[n|]]; reflexivity.
Qed.

Theorem cli_executes an f args dry b n : CRun dry b n ∈ fst (cli_run an f args) ->
  dry = g_dry f /\ b = g_babfile f /\
  (chosen f args (MRun n) \/ (chosen f args MInteractive /\ an_load an = None /\ an_pick an = inr (Some n))).
Proof.
  intros Hin. destruct (chosen_one f args) as (m & Hm & _). pose proof (cli_calls an f args m Hm) as Hc. destruct m as [| | |n'|].
  - rewrite Hc in Hin. case_decide; [|inversion Hin]. apply elem_of_list_singleton in Hin. discriminate Hin.
  - rewrite Hc in Hin. apply elem_of_cons in Hin as [[=] | Hin]. destruct (an_load an); [inversion Hin|]. apply elem_of_list_singleton in Hin. discriminate Hin.
  - rewrite Hc in Hin. apply elem_of_cons in Hin as [[=] | Hin]. destruct (an_load an); [inversion Hin|]. apply elem_of_list_singleton in Hin. discriminate Hin.
  - rewrite Hc in Hin. simpl in Hin. apply elem_of_list_singleton in Hin. injection Hin as -> -> ->. auto.
  - rewrite Hc in Hin. apply elem_of_cons in Hin as [[=] | Hin]. destruct (an_load an) eqn:El; [inversion Hin|].
    destruct (an_pick an) as [e|[n'|]] eqn:Ep; (apply elem_of_cons in Hin as [[=] | Hin]); [inversion Hin| |inversion Hin].
    apply elem_of_list_singleton in Hin. injection Hin as -> -> ->. split; [reflexivity|]. split; [reflexivity|]. right. auto.
Qed.
