(** Theorems about goroutines and the maps of variables: C80. *)
From Verif Require Import Base Interp_Model Cond_Model Types_Model Path_Model Run_Model Run_Logic Run_Drive Race_Spec Race_Proof.

(** Whatever is scheduled when, whatever the commands and the user do: no map of variables
    is changed by one goroutine while another one uses it, if every task that can run inside
    of a parallel block and asks a question has variables of its own. *)
Theorem C80_no_race : forall k tasks root h p, blocks_ask_own tasks ->
  rtc (cstep (k_vars k)) ([], run_with_tasks k tasks root) (h, p) -> ~ race p.
Proof. exact no_race. Qed.
Print Assumptions C80_no_race.

(** ** The full claim, without the condition, fails *)
(** Two tasks without variables that ask: both answers are stored in the map of the
    global variables, and nothing orders the two stores. *)
Definition askers : taskmap := tm [mk "all" None [] [par 0 [ref "a"; ref "b"]]; mk "a" None [] [ask "x"]; mk "b" None [] [ask "y"]].
Definition stored (items : list nat) (n : nat) : list act := Go [] 30 fine :: flat_map (fun j => [Do [] (MSlot j); Go [j] n (says (lit "v"))]) items.
Definition asked := ran (conf false) askers (lit "all") (stored [0; 1] 6).
Theorem C80_refuted : exists k tasks root h p, rtc (cstep (k_vars k)) ([], run_with_tasks k tasks root) (h, p) /\ race p.
Proof.
  exists (conf false), askers, (lit "all"), asked.1, asked.2. split; [unfold asked, ran; rewrite <- surjective_pairing; apply play_run|].
  apply (race_at _ [0] [1] (EWrite (lit "a") [0] 0 (lit "x") (lit "v")) (EWrite (lit "b") [0] 0 (lit "y") (lit "v")) 0 true); vm_compute; congruence.
Qed.
Print Assumptions C80_refuted.

(** One that asks is enough: the other one only runs a command. *)
Definition asker : taskmap := tm [mk "all" None [] [par 0 [ref "a"; ref "b"]]; mk "a" None [] [ask "x"]; mk "b" None [] [cmd "make"]].
Definition read_while := ran (conf false) asker (lit "all") (stored [0] 6 ++ [Do [] (MSlot 1); Go [1] 2 fine]).
Theorem C80_reader_refuted : exists k tasks root h p, rtc (cstep (k_vars k)) ([], run_with_tasks k tasks root) (h, p) /\ race p /\
  tasks !! root = Some (mk "all" None [] [par 0 [ref "a"; ref "b"]]) /\ tasks !! lit "b" = Some (mk "b" None [] [cmd "make"]).
Proof.
  exists (conf false), asker, (lit "all"), read_while.1, read_while.2. split; [unfold read_while, ran; rewrite <- surjective_pairing; apply play_run|].
  split; [|split; vm_compute; reflexivity].
  apply (race_at _ [0] [1] (EWrite (lit "a") [0] 0 (lit "x") (lit "v")) (ERead (lit "b") [] 0) 0 false); vm_compute; congruence.
Qed.
Print Assumptions C80_reader_refuted.

(** ** The condition is met *)
(** The same two tasks with variables of their own, one of them called by a task without any, and a
    question asked before the block by a task without variables. In a state of the run both
    are about to store their answers: in different maps. *)
Definition owners : taskmap := tm [mk "all" None [] [ask "z"; par 0 [ref "a"; ref "b"]]; mk "a" (Some ∅) [] [ask "x"]; mk "b" None [] [ref "c"; cmd "make ${{ z }}"]; mk "c" (Some ∅) [] [ask "y"]].
Definition own_asked := ran (conf false) owners (lit "all") (Go [] 30 (says (lit "w")) :: [Do [] (MSlot 0); Go [0] 8 (says (lit "v")); Do [] (MSlot 1); Go [1] 12 (says (lit "v"))]).
Definition about (p : prog) (who : list nat) : option (nat * bool) := match next p who with Some e => uses_map e | None => None end.
Example C80_met : blocks_ask_own owners /\
  rtc (cstep (k_vars (conf false))) ([], run_with_tasks (conf false) owners (lit "all")) (own_asked.1, own_asked.2) /\
  about own_asked.2 [0] = Some (2, true) /\ about own_asked.2 [1] = Some (3, true).
Proof.
  split; [|split; [unfold own_asked, ran; rewrite <- surjective_pairing; apply play_run|vm_compute; auto]].
  assert (Hin : forall n t, owners !! n = Some t -> n = lit "all" /\ t = mk "all" None [] [ask "z"; par 0 [ref "a"; ref "b"]] \/ n = lit "a" /\ t = mk "a" (Some ∅) [] [ask "x"] \/
    n = lit "b" /\ t = mk "b" None [] [ref "c"; cmd "make ${{ z }}"] \/ n = lit "c" /\ t = mk "c" (Some ∅) [] [ask "y"]).
  { intros n t H. unfold owners, tm in H. apply elem_of_list_to_map_2 in H. cbn in H. rewrite !elem_of_cons, elem_of_nil in H.
    destruct H as [E|[E|[E|[E|[]]]]]; injection E as -> ->; auto 10. }
  intros n t o items r Ht Ho Hr m t' Hc Ht' Hv q Hq.
  assert (Hm : m = lit "a" \/ m = lit "b" \/ m = lit "c").
  { assert (H0 : r_task r = lit "a" \/ r_task r = lit "b" \/ r_task r = lit "c").
    { apply Hin in Ht as [[_ ->]|[[_ ->]|[[_ ->]|[_ ->]]]]; cbn in Ho; rewrite ?elem_of_cons, ?elem_of_nil in Ho; try (destruct Ho as [Ho|[]]; discriminate Ho); try (destruct Ho as [Ho|[Ho|[]]]; discriminate Ho).
      destruct Ho as [Ho|[Ho|[]]]; [discriminate Ho|]. injection Ho as -> ->. rewrite !elem_of_cons, elem_of_nil in Hr. destruct Hr as [E|[E|[]]]; injection E as ->; auto. }
    clear Hr. revert H0. induction Hc as [x|x y z H _ IH]; [auto|]. intros H0. apply IH; [exact Ht'|].
    destruct H as [tx d E1 E2|tx s E1 E2|tx o' is s E1 E2 E3]; apply Hin in E1 as [[E ->]|[[E ->]|[[E ->]|[E ->]]]]; rewrite E in H0; cbn in E2;
      rewrite ?elem_of_cons, ?elem_of_nil in E2; try (destruct E2 as [E2|[]]; discriminate E2); try contradiction; try (destruct H0 as [H0|[H0|H0]]; discriminate H0).
    - destruct E2 as [E2|[E2|[]]]; [injection E2 as ->; auto|discriminate E2].
    - destruct E2 as [E2|[E2|[]]]; discriminate E2. }
  apply Hin in Ht' as [[E ->]|[[E ->]|[[E ->]|[E ->]]]]; try discriminate Hv.
  - rewrite E in Hm. destruct Hm as [H|[H|H]]; discriminate H.
  - cbn in Hq. rewrite !elem_of_cons, elem_of_nil in Hq. destruct Hq as [H|[H|[]]]; discriminate H.
Qed.
