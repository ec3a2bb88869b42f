(** Concrete executions of the runner, for examples and counterexamples: a script
    says which goroutine moves and what the outside world answers. Whatever a
    script produces is an execution of the model ([play_run]). *)
From Verif Require Import Base Interp_Model Cond_Model Types_Model Path_Model Run_Model Run_Logic.

(** What the outside world answers when asked; [an_rev]: maps are iterated backwards. *)
Record answers := Answers { an_ok : bool; an_prompt : option str; an_stat : statres; an_rev : bool }.
Definition fine : answers := Answers true (Some []) SDir false.
Definition failing : answers := Answers false None SMissing false.
Definition says (s : str) : answers := Answers true (Some s) SDir false.
Definition backwards (a : answers) : answers := Answers (an_ok a) (an_prompt a) (an_stat a) true.

Fixpoint snapshot (h : hist) : gmap str status :=
  match h with
  | [] => ∅
  | OClaim n _ Fresh :: r => <[n := Active]> (snapshot r)
  | ODone n :: r => <[n := Done]> (snapshot r)
  | _ :: r => snapshot r
  end.

Lemma snapshot_spec h n : snapshot h !! n = match status_of h n with Fresh => None | s => Some s end.
Proof.
  induction h as [|ev h IH]; [apply lookup_empty|]. destruct ev; try exact IH; simpl.
  - destruct s; try exact IH. destruct (decide (n0 = n)) as [->|]; [apply lookup_insert|]. rewrite lookup_insert_ne by assumption. exact IH.
  - destruct (decide (n0 = n)) as [->|]; [apply lookup_insert|]. rewrite lookup_insert_ne by assumption. exact IH.
Qed.

Definition respond (g : gmap str str) (h : hist) (a : answers) (e : eff) : resp e :=
  match e with
  | EClaim n _ | EGet n => status_of h n
  | ESnapshot => snapshot h
  | ECheck _ _ c => cancelledb h c
  | EOrder m => if an_rev a then reverse (map_to_list m).*1 else (map_to_list m).*1
  | EAlloc _ _ _ => S (allocs h)
  | ERead _ _ l => heap_of g h l
  | EStat _ _ _ => an_stat a
  | EStart x => an_ok a && negb (cancelledb h (x_ctx x))
  | EEnd _ _ => an_ok a
  | EPrompt _ _ _ => an_prompt a
  | ENewCtx _ => S (contexts h)
  | ETui => an_ok a
  | _ => tt
  end.

Lemma respond_allowed g h a e : allowed g h (obs e (respond g h a e)).
Proof.
  destruct e; simpl; auto.
  - apply snapshot_spec.
  - destruct (an_rev a); [apply reverse_Permutation|reflexivity].
  - intros ->. apply andb_false_r.
Qed.

(** The moves of the goroutine reached by [who]: at each level, which item of the
    block it is in. *)
Inductive move := MGo (a : answers) | MSlot (j : nat) | MGiveUp (j : nat) | MReturn (j : nat) | MFree (j : nat) | MJoin.

Fixpoint kick (g : gmap str str) (h : hist) (who : list nat) (m : move) (p : prog) : option (event * prog) :=
  match who with
  | j :: q =>
      match p with
      | Fork t pa lim c chs log kk =>
          match chs !! j with
          | Some (Running, p1) =>
              match kick g h q m p1 with
              | Some (ev, p2) => Some (ev, Fork t pa lim c (<[j := (Running, p2)]> chs) log kk)
              | None => None
              end
          | _ => None
          end
      | _ => None
      end
  | [] =>
      match m, p with
      | MGo a, Vis e kk => let r := respond g h a e in Some (obs e r, kk r)
      | MSlot j, Fork t pa lim c chs log kk =>
          match chs !! j with
          | Some (Waiting, p1) =>
              if decide (lim = 0 \/ active chs < lim)
              then Some (OSlot t pa j, Fork t pa lim c (<[j := (Running, p1)]> chs) log kk) else None
          | _ => None
          end
      | MGiveUp j, Fork t pa lim c chs log kk =>
          match chs !! j with
          | Some (Waiting, p1) =>
              if decide (lim = 0) then None
              else if cancelledb h c then Some (OGiveUp t pa j c, Fork t pa lim c (<[j := (Skipped, p1)]> chs) log kk) else None
          | _ => None
          end
      | MReturn j, Fork t pa lim c chs log kk =>
          match chs !! j with
          | Some (Running, Ret r) => Some (OReturn t pa j r, Fork t pa lim c (<[j := (Reported, Ret r)]> chs) (log ++ [(j, r)]) kk)
          | _ => None
          end
      | MFree j, Fork t pa lim c chs log kk =>
          match chs !! j with
          | Some (Reported, p1) => Some (OFree t pa j, Fork t pa lim c (<[j := (Released, p1)]> chs) log kk)
          | _ => None
          end
      | MJoin, Fork t pa lim c chs log kk =>
          if forallb (fun x => match x.1 with Released | Skipped => true | _ => false end) chs then Some (OJoin t pa, kk log) else None
      | _, _ => None
      end
  end.

Lemma kick_step g h who m p ev p' : kick g h who m p = Some (ev, p') -> pstep p ev p' /\ allowed g h ev.
Proof.
  revert p ev p'. induction who as [|j q IH]; simpl; intros p ev p' H.
  - destruct m, p as [r|e kk|t pa lim c chs log kk]; try discriminate.
    + injection H as <- <-. split; [constructor|apply respond_allowed].
    + destruct (chs !! j) as [[[] p1]|] eqn:E; try discriminate. case_decide; [|discriminate]. injection H as <- <-.
      split; [econstructor; eassumption|exact I].
    + destruct (chs !! j) as [[[] p1]|] eqn:E; try discriminate. case_decide; [discriminate|].
      destruct (cancelledb h c) eqn:Ec; [|discriminate]. injection H as <- <-. split; [econstructor; eassumption|exact Ec].
    + destruct (chs !! j) as [[[] [r| |]]|] eqn:E; try discriminate. injection H as <- <-. split; [econstructor; eassumption|exact I].
    + destruct (chs !! j) as [[[] p1]|] eqn:E; try discriminate. injection H as <- <-. split; [econstructor; eassumption|exact I].
    + destruct (forallb _ _) eqn:E; [|discriminate]. injection H as <- <-. split; [|exact I]. constructor.
      apply Forall_forall. intros [st p1] Hin. rewrite forallb_forall in E. apply elem_of_list_In in Hin. specialize (E _ Hin). simpl in E.
      destruct st; try discriminate; [left|right]; reflexivity.
  - destruct p as [r|e kk|t pa lim c chs log kk]; try discriminate. destruct (chs !! j) as [[[] p1]|] eqn:E; try discriminate.
    destruct (kick g h q m p1) as [[ev1 p2]|] eqn:Ek; [|discriminate]. injection H as <- <-.
    destruct (IH _ _ _ Ek) as [H1 H2]. split; [econstructor; eassumption|exact H2].
Qed.

(** A script. [Go who n a]: the goroutine makes up to [n] steps. A move that is not
    possible is left out. *)
Inductive act := Go (who : list nat) (n : nat) (a : answers) | Do (who : list nat) (m : move) | Cancel (i : nat).

Fixpoint go (g : gmap str str) (who : list nat) (a : answers) (n : nat) (s : hist * prog) : hist * prog :=
  match n with
  | 0 => s
  | S n' => match kick g s.1 who (MGo a) s.2 with Some (ev, p) => go g who a n' (ev :: s.1, p) | None => s end
  end.
Fixpoint play (g : gmap str str) (l : list act) (s : hist * prog) : hist * prog :=
  match l with
  | [] => s
  | Go who n a :: r => play g r (go g who a n s)
  | Do who m :: r => play g r (match kick g s.1 who m s.2 with Some (ev, p) => (ev :: s.1, p) | None => s end)
  | Cancel i :: r => play g r (OCancel i :: s.1, s.2)
  end.

Lemma go_run g who a n s : rtc (cstep g) s (go g who a n s).
Proof.
  revert s. induction n as [|n IH]; intros [h p]; simpl; [reflexivity|]. destruct (kick g h who (MGo a) p) as [[ev p']|] eqn:E; [|reflexivity].
  apply kick_step in E as [H1 H2]. eapply rtc_l; [constructor; eassumption|]. apply IH.
Qed.
Lemma kick_run g who m s : rtc (cstep g) s (match kick g s.1 who m s.2 with Some (ev, p) => (ev :: s.1, p) | None => s end).
Proof.
  destruct s as [h p]; simpl. destruct (kick g h who m p) as [[ev p']|] eqn:E; [|reflexivity].
  apply kick_step in E as [H1 H2]. apply rtc_once. constructor; assumption.
Qed.
Lemma play_run g l s : rtc (cstep g) s (play g l s).
Proof.
  revert s. induction l as [|b l IH]; intros s; [reflexivity|]. destruct b as [who n a|who m|i]; simpl.
  - transitivity (go g who a n s); [apply go_run|apply IH].
  - eapply transitivity; [apply (kick_run g who m s)|apply IH].
  - apply rtc_l with (OCancel i :: s.1, s.2); [|apply IH]. destruct s as [h p]. apply cs_cancel.
Qed.

(** ** Small task maps *)
Definition cmd (s : string) : run_item := RCmd (CmdRun 1 (lit s) [] None None None [] []).
Definition ref (s : string) : run_item := RTask (TaskRun 1 (lit s) None None [] []).
Definition note (s : string) : run_item := RLog (LogRun 1 (lit s) (lit "info") [] []).
Definition ask (v : string) : run_item :=
  RPrompt (PromptRun 1 (lit v) (lit "input") (lit "?") [] [] [] [] [] [] None None None []).
Definition par (limit : Z) (items : list run_item) : run_item :=
  RPar (ParOpts 1 [] [] limit None None None [] []) items.
Definition mk (n : string) (vars : smap) (deps : list string) (run : list run_item) : task :=
  Task (lit n) 1 1 (lit "/w/Babfile.yml") [] [] [] vars None None None [] [] (map lit deps) run.
Definition tm (l : list task) : taskmap := list_to_map (map (fun t => (t_name t, t)) l).
Definition conf (dry : bool) : config :=
  Config dry ∅ None None None [] (fun _ => []) [lit "HOME=/h"; lit "LANG=C"] (lit "linux") false.

(** A finished run, by a script. *)
Definition ran (k : config) (tasks : taskmap) (root : str) (l : list act) : hist * prog :=
  play (k_vars k) l ([], run_with_tasks k tasks root).
