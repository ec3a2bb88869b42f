(** The byte-wise order of Go strings, and sorting. *)
From Verif Require Import Base.

(** Go's [a <= b] on strings: lexicographic by bytes. *)
Fixpoint str_leb (a b : str) : bool :=
  match a, b with
  | [], _ => true
  | _ :: _, [] => false
  | c :: a', d :: b' => if decide (c = d) then str_leb a' b' else (code c <? code d)
  end.

Definition str_le (a b : str) : Prop := str_leb a b = true.
Global Instance str_le_dec a b : Decision (str_le a b).
Proof. unfold str_le. apply _. Defined.

Lemma code_inj c d : code c = code d -> c = d.
Proof. intros H. rewrite <- (ascii_nat_embedding c), <- (ascii_nat_embedding d). unfold code in H. congruence. Qed.

Lemma str_le_refl a : str_le a a.
Proof. unfold str_le. induction a as [|c a IH]; simpl; [reflexivity|]. destruct (decide (c = c)); [exact IH|congruence]. Qed.

Lemma str_le_total a b : str_le a b \/ str_le b a.
Proof.
  unfold str_le. revert b; induction a as [|c a IH]; intros [|d b]; simpl; auto.
  destruct (decide (c = d)) as [->|Hne].
  - destruct (decide (d = d)); [apply IH|congruence].
  - destruct (decide (d = c)) as [->|]; [congruence|]. rewrite !Nat.ltb_lt.
    assert (code c <> code d) by (intros H; apply Hne, code_inj, H). lia.
Qed.

Lemma str_le_antisym a b : str_le a b -> str_le b a -> a = b.
Proof.
  unfold str_le. revert b; induction a as [|c a IH]; intros [|d b]; simpl; try congruence.
  destruct (decide (c = d)) as [->|Hne].
  - destruct (decide (d = d)); [|congruence]. intros H1 H2. f_equal. apply IH; assumption.
  - destruct (decide (d = c)); [congruence|]. rewrite !Nat.ltb_lt. lia.
Qed.

Lemma str_le_trans a b c : str_le a b -> str_le b c -> str_le a c.
Proof.
  unfold str_le. revert b c; induction a as [|x a IH]; intros [|y b] [|z c]; simpl; try congruence.
  destruct (decide (x = y)) as [->|Hxy].
  - destruct (decide (y = z)) as [->|Hyz]; [apply IH|congruence].
  - destruct (decide (y = z)) as [->|Hyz].
    + destruct (decide (x = z)); [congruence|]. auto.
    + rewrite !Nat.ltb_lt. destruct (decide (x = z)) as [->|]; [lia|]. rewrite Nat.ltb_lt. lia.
Qed.

Global Instance str_le_PreOrder : PreOrder str_le.
Proof. split; [exact str_le_refl|intros a b c; apply str_le_trans]. Qed.
Global Instance str_le_AntiSymm : AntiSymm (=) str_le.
Proof. intros a b; apply str_le_antisym. Qed.
Global Instance str_le_Total : Total str_le.
Proof. intros a b; apply str_le_total. Qed.

(** [slices.Sort] / [sort.Strings]: the sorted permutation. *)
Definition sort_strs (l : list str) : list str := merge_sort str_le l.

Lemma sort_strs_perm l : sort_strs l ≡ₚ l.
Proof. apply merge_sort_Permutation. Qed.
Lemma sort_strs_sorted l : StronglySorted str_le (sort_strs l).
Proof. apply StronglySorted_merge_sort; apply _. Qed.
Lemma sort_strs_unique l1 l2 : l1 ≡ₚ l2 -> sort_strs l1 = sort_strs l2.
Proof.
  intros H. apply (StronglySorted_unique str_le); [apply sort_strs_sorted|apply sort_strs_sorted|].
  rewrite !sort_strs_perm. exact H.
Qed.
