(** The writers of nested blocks, for lines that are not interrupted. *)
From Verif Require Import Base Types_Model Run_Model Run_Spec Label_Model Out_Model Out_Spec Out_Proof Dest_Spec Alone_Spec Screen_Model Screen_Spec.

Lemma process_eq p d ls q : cuts (p ++ d) ls q -> process p d = (ls, q).
Proof. intros H. destruct (process_cuts p d) as (ls' & q' & -> & H'). destruct (cuts_fun _ _ _ _ _ H H') as [-> ->]. reflexivity. Qed.
Lemma cuts_typed ls : Forall (fun l => nl ∉ l) ls -> cuts (typed ls) ls [].
Proof.
  induction 1 as [|l ls Hl _ IH]; [constructor; apply not_elem_of_nil|]. unfold typed. simpl. rewrite <- app_assoc. simpl. constructor; assumption.
Qed.
Lemma type_nil s c : forall s', sc_tty (type s [] c) s' = sc_tty c s'.
Proof. intros s'. simpl. destruct (decide _); [apply app_nil_r|reflexivity]. Qed.

Section Put.
  Context (a : ansi_lib) (tasks : taskmap) (style : nat -> str -> str) (strip : spot -> bool).
  Context (Hpre : forall it, nl ∉ prefix_at tasks style it) (Hshown : forall b l, nl ∉ l -> nl ∉ shown a b l).
  Notation put := (put a tasks style strip).
  Notation flush_at := (flush_at a tasks style strip).
  Notation prefix_at := (prefix_at tasks style).

  Fixpoint carry (w : spot) (l : str) : str :=
    match w with [] => l | it :: w' => carry w' (prefix_at it ++ shown a (strip w) l) end.
  (** Nothing is held back by the writers of [w] and around it. *)
  Definition clear (s : stream) (w : spot) (c : screen) : Prop := forall u, u `suffix_of` w -> u <> [] -> sc_part c s u = [].

  (** [c'] is [c] with the buffer of [w] changed to [b] and the lines [ls] of [w] written. *)
  Definition effect (s : stream) (w : spot) (b : str) (ls : list str) (c c' : screen) : Prop :=
    (forall s' u, sc_part c' s' u = if decide (s' = s /\ u = w /\ w <> []) then b else sc_part c s' u) /\
    (forall s', sc_tty c' s' = if decide (s' = s) then sc_tty c s' ++ typed (map (carry w) ls) else sc_tty c s').

  Lemma typed_app l1 l2 : typed (l1 ++ l2) = typed l1 ++ typed l2.
  Proof. unfold typed. rewrite map_app, concat_app. reflexivity. Qed.

  (** Lines [ls] given to the writer of [w], which holds back nothing. *)
  Definition goes_through (w : spot) : Prop := forall s l c, nl ∉ l -> clear s w c -> effect s w [] [l] c (put s w (l ++ [nl]) c).
  Lemma clear_same s w c c' : (forall u, sc_part c' s u = sc_part c s u) -> clear s w c -> clear s w c'.
  Proof. intros E H u Hu Hne. rewrite E. apply H; assumption. Qed.
  Lemma fold_lines w (f : str -> str) s : goes_through w -> (forall l, nl ∉ l -> nl ∉ f l) -> forall ls c, Forall (fun l => nl ∉ l) ls -> clear s w c ->
    let c' := foldl (fun c l => put s w (f l ++ [nl]) c) c ls in
    (forall s' u, sc_part c' s' u = sc_part c s' u) /\
    (forall s', sc_tty c' s' = if decide (s' = s) then sc_tty c s' ++ typed (map (carry w) (map f ls)) else sc_tty c s').
  Proof.
    intros Hw Hf. induction ls as [|l ls IH]; intros c Hls Hc; simpl.
    - split; [reflexivity|]. intros s'. destruct (decide _); [rewrite app_nil_r|]; reflexivity.
    - apply Forall_cons in Hls as [Hl Hls]. destruct (Hw s (f l) c (Hf l Hl) Hc) as [E1 E2].
      assert (E1' : forall s' u, sc_part (put s w (f l ++ [nl]) c) s' u = sc_part c s' u).
      { intros s' u. rewrite E1. destruct (decide _) as [(-> & -> & Hne)|_]; [symmetry; apply Hc; [reflexivity|exact Hne]|reflexivity]. }
      destruct (IH _ Hls (clear_same _ _ _ _ (E1' s) Hc)) as [H1 H2]. split.
      + intros s' u. rewrite H1. apply E1'.
      + intros s'. rewrite H2, E2. destruct (decide (s' = s)); [|reflexivity]. rewrite <- app_assoc. f_equal. rewrite <- typed_app. reflexivity.
  Qed.
  (** A writer with lines to write, the ones around holding back nothing. *)
  Lemma writer_lines it w s b ls c : goes_through w -> Forall (fun l => nl ∉ l) ls -> clear s w c ->
    effect s (it :: w) b ls c (foldl (fun c l => put s w (prefix_at it ++ shown a (strip (it :: w)) l ++ [nl]) c) (set_part s (it :: w) b c) ls).
  Proof.
    intros Hw Hls Hc. set (f := fun l => prefix_at it ++ shown a (strip (it :: w)) l).
    assert (Hf : forall l, nl ∉ l -> nl ∉ f l) by (intros l Hl; unfold f; rewrite not_elem_of_app; auto).
    assert (Hc' : clear s w (set_part s (it :: w) b c)).
    { intros u Hu Hne. simpl. rewrite decide_False; [apply Hc; assumption|]. intros [_ ->]. apply suffix_length in Hu. simpl in Hu. lia. }
    destruct (fold_lines w f s Hw Hf ls _ Hls Hc') as [H1 H2].
    assert (E : forall c0, foldl (fun c l => put s w (prefix_at it ++ shown a (strip (it :: w)) l ++ [nl]) c) c0 ls = foldl (fun c l => put s w (f l ++ [nl]) c) c0 ls).
    { assert (Ef : forall l, f l ++ [nl] = prefix_at it ++ shown a (strip (it :: w)) l ++ [nl]) by (intros; unfold f; rewrite <- app_assoc; reflexivity).
      clear -Ef. induction ls as [|l ls IH]; intros c0; simpl; [reflexivity|]. rewrite Ef. apply IH. }
    rewrite E. split.
    - intros s' u. rewrite H1. simpl. destruct (decide (s' = s /\ u = it :: w)) as [[-> ->]|Hn].
      + rewrite decide_True by (split; [reflexivity|split; [reflexivity|discriminate]]). reflexivity.
      + rewrite decide_False by tauto. reflexivity.
    - intros s'. rewrite H2. simpl. rewrite map_map. reflexivity.
  Qed.
  Lemma through w : goes_through w.
  Proof.
    induction w as [|it w IH]; intros s l c Hl Hc.
    - split; simpl; [intros s' u; rewrite decide_False by tauto; reflexivity|]. intros s'. unfold typed. simpl. rewrite app_nil_r. reflexivity.
    - simpl put. rewrite (Hc (it :: w)) by (reflexivity || discriminate). rewrite (process_eq [] (l ++ [nl]) [l] []) by (simpl; constructor; [exact Hl|constructor; apply not_elem_of_nil]).
      apply writer_lines; [exact IH|constructor; [exact Hl|constructor]|]. intros u Hu Hne. apply Hc; [|exact Hne]. apply suffix_cons_r. exact Hu.
  Qed.

  Lemma cuts_flat s ls p : cuts s ls p -> Forall (fun l => nl ∉ l) ls.
  Proof. induction 1; constructor; assumption. Qed.
  (** Data for a writer. *)
  Lemma put_effect s it w data c ls b : cuts (sc_part c s (it :: w) ++ data) ls b -> clear s w c -> effect s (it :: w) b ls c (put s (it :: w) data c).
  Proof. intros Hd Hc. simpl put. rewrite (process_eq _ _ _ _ Hd). apply writer_lines; [apply through|apply (cuts_flat _ _ _ Hd)|exact Hc]. Qed.
  Lemma flush_effect s it w c : nl ∉ sc_part c s (it :: w) -> clear s w c -> effect s (it :: w) [] (flush (sc_part c s (it :: w))) c (flush_at s (it :: w) c).
  Proof.
    intros Hn Hc. apply writer_lines; [apply through| |exact Hc]. destruct (sc_part c s (it :: w)); simpl; constructor; [exact Hn|constructor].
  Qed.
  (** Whole lines for a place where nothing is held back. *)
  Lemma lines_effect s w c ls : Forall (fun l => nl ∉ l) ls -> clear s w c -> effect s w [] ls c (put s w (typed ls) c).
  Proof.
    intros Hls Hc. destruct w as [|it w].
    - split; simpl; [intros s' u; rewrite decide_False by tauto; reflexivity|]. intros s'. rewrite map_id. reflexivity.
    - apply put_effect; [|intros u Hu; apply Hc; apply suffix_cons_r; exact Hu]. rewrite Hc by (reflexivity || discriminate). apply cuts_typed. exact Hls.
  Qed.
End Put.
