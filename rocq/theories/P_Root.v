(** C12: which file is loaded. *)
From Verif Require Import Base Types_Model Valid_Model Path_Model Path_Proof Cond_Model Include_Model P_Include.

(** The file given by an absolute path does not depend on where bab is started. *)
Theorem C12_absolute_path fs orc grow vorc cwd cwd' path :
  parse fs orc grow vorc cwd (slash :: path) = parse fs orc grow vorc cwd' (slash :: path).
Proof.
  assert (G : forall d, root_of d (slash :: path) = Path_Model.clean (slash :: path)).
  { intros d. assert (A : is_abs (slash :: path) = true) by reflexivity. unfold root_of, abs_path. rewrite (clean_abs _ A). apply clean_clean, A. }
  unfold parse. fold (root_of cwd (slash :: path)). fold (root_of cwd' (slash :: path)). rewrite !G. reflexivity.
Qed.
Print Assumptions C12_absolute_path.

(** [Clean] of a relative path leads to the same place from everywhere. *)
Definition kept_elem (x : str) : Prop := proper x \/ x = lit "..".
Lemma walk_clean_step cur acc w : slash ∉ w -> Forall kept_elem acc ->
  Forall kept_elem (clean_step false acc w) /\
  fold_left walk_step (rev (clean_step false acc w)) cur = walk_step (fold_left walk_step (rev acc) cur) w.
Proof.
  intros Hw Ha. unfold clean_step. destruct (decide (w = [] \/ w = lit ".")) as [E|E].
  - split; [exact Ha|]. unfold walk_step at 2. rewrite decide_True by exact E. reflexivity.
  - destruct (decide (w = lit "..")) as [->|E2].
    + destruct acc as [|top rest]; [split; [constructor; [right; reflexivity|constructor]|reflexivity]|].
      destruct (decide (top = lit "..")) as [->|E3].
      * split; [constructor; [right; reflexivity|exact Ha]|]. cbn [rev]. rewrite !fold_left_app. reflexivity.
      * apply Forall_cons in Ha as [[Ht|Ht] Ha]; [|contradiction]. split; [exact Ha|]. cbn [rev]. rewrite fold_left_app. cbn [fold_left].
        unfold walk_step at 3. destruct Ht as (H1 & H2 & H3 & H4). rewrite decide_False by tauto. rewrite decide_False by exact E3. reflexivity.
    + split; [constructor; [left; repeat split; tauto|exact Ha]|]. cbn [rev]. rewrite fold_left_app. reflexivity.
Qed.
Lemma walk_clean cur p : is_abs p = false -> walk cur (Path_Model.clean p) = walk cur p.
Proof.
  intros Hr. unfold Path_Model.clean. rewrite Hr. unfold clean_elems.
  assert (G : forall l acc, Forall (fun w => slash ∉ w) l -> Forall kept_elem acc ->
    Forall kept_elem (fold_left (clean_step false) l acc) /\
    fold_left walk_step (rev (fold_left (clean_step false) l acc)) cur = fold_left walk_step l (fold_left walk_step (rev acc) cur)).
  { induction l as [|w l IH]; intros acc Hl Ha; [split; [exact Ha|reflexivity]|]. apply Forall_cons in Hl as [Hw Hl].
    destruct (walk_clean_step cur acc w Hw Ha) as [G1 G2]. cbn [fold_left]. destruct (IH _ Hl G1) as [G3 G4]. split; [exact G3|]. rewrite G4, G2. reflexivity. }
  destruct (G (split_on slash p) []) as [G1 G2]; [apply Forall_forall; intros w; apply split_no_slash|constructor|].
  cbn [rev fold_left] in G2. unfold walk at 2. rewrite <- G2. clear G G2. set (out := rev _) in *.
  assert (Hp : Forall kept_elem out) by (subst out; apply Forall_rev; exact G1). clearbody out. clear G1.
  destruct out as [|w out]; [reflexivity|].
  assert (Hs : Forall (fun w => slash ∉ w) (w :: out)).
  { eapply Forall_impl; [exact Hp|]. intros x [Hx|Hx]; [apply Hx|]. rewrite Hx. apply (bool_decide_unpack _). vm_compute. exact I. }
  pose proof (split_join (w :: out) Hs ltac:(discriminate)) as E.
  destruct (join_with [slash] (w :: out)) as [|c r] eqn:Ej; unfold walk; [|rewrite E; reflexivity].
  cbn in E. injection E as <- <-. apply Forall_cons in Hp as [[Hp|Hp] _]; [|discriminate Hp]. destruct Hp as (H1 & _). contradiction.
Qed.

Lemma clean_elems_kept l : Forall (fun w => slash ∉ w) l -> Forall kept_elem (clean_elems false l).
Proof.
  intros Hl. unfold clean_elems. apply Forall_rev. assert (G : forall acc, Forall kept_elem acc -> Forall kept_elem (fold_left (clean_step false) l acc)).
  { induction Hl as [|w l Hw Hl IH]; intros acc Ha; [exact Ha|]. apply IH, (walk_clean_step [] acc w Hw Ha). }
  apply G. constructor.
Qed.
Lemma clean_stays_relative p : is_abs p = false -> is_abs (Path_Model.clean p) = false.
Proof.
  intros Hr. unfold Path_Model.clean. rewrite Hr. pose proof (clean_elems_kept (split_on slash p)) as H.
  destruct (clean_elems false (split_on slash p)) as [|w out]; [reflexivity|].
  assert (Hk : kept_elem w) by (destruct (proj1 (Forall_cons _ _ _) (H ltac:(apply Forall_forall; intros x; apply split_no_slash))) as [Hk _]; exact Hk).
  assert (Hw : exists c r, w = c :: r /\ c <> slash).
  { destruct Hk as [(H1 & _ & _ & H4)| ->]; [|eexists _, _; split; [reflexivity|discriminate]]. destruct w as [|c r]; [contradiction|].
    exists c, r. split; [reflexivity|]. intros ->. apply H4. left. }
  destruct Hw as (c & r & -> & Hc). destruct out; cbn; apply bool_decide_eq_false; exact Hc.
Qed.

(** And where a relative one leads: from the current directory, element by element. *)
Theorem C12_relative_path cwd path : is_abs cwd = true -> is_abs path = false ->
  root_of cwd path = spelled (walk (place_of cwd) path).
Proof.
  intros Hc Hp. unfold root_of, abs_path. rewrite (clean_stays_relative _ Hp), (join_place cwd _ Hc), (walk_clean _ _ Hp). reflexivity.
Qed.
Print Assumptions C12_relative_path.
Example C12_where_met : is_abs (lit "/home/u/p") = true /\ is_abs (lit "a/../../q/./Babfile") = false /\
  root_of (lit "/home/u/p") (lit "a/../../q/./Babfile") = lit "/home/u/q/Babfile" /\
  root_of (lit "/home/u/p") (lit "/srv/../Babfile") = lit "/Babfile".
Proof. vm_compute. auto. Qed.
