From Verif Require Import Base Utf8_Model Utf8_Spec.
Local Open Scope N_scope.

Lemma byte_lt c : byte c < 256.
Proof. unfold byte. destruct c as [[] [] [] [] [] [] [] []]; reflexivity. Qed.
Lemma byte_of n : n < 256 -> byte (of_byte n) = n.
Proof. apply N_ascii_embedding. Qed.
Lemma of_byte_byte c : of_byte (byte c) = c.
Proof. apply ascii_N_embedding. Qed.
Lemma of_byte_eq c n : byte c = n -> of_byte n = c.
Proof. intros <-. apply of_byte_byte. Qed.

Lemma within_true lo x hi : within lo x hi = true <-> lo <= x <= hi.
Proof. unfold within. rewrite andb_true_iff, !N.leb_le. reflexivity. Qed.
Lemma within_false lo x hi : within lo x hi = false <-> x < lo \/ hi < x.
Proof. unfold within. rewrite andb_false_iff, !N.leb_gt. reflexivity. Qed.

Ltac digits := repeat match goal with
  | |- context [?a / ?b] => let q := fresh "q" in let r := fresh "r" in
      pose proof (N.div_mod a b ltac:(discriminate)); pose proof (N.mod_lt a b ltac:(discriminate)); set (q := a / b) in *; set (r := a mod b) in *; clearbody q r
  | |- context [?a mod ?b] => let q := fresh "q" in let r := fresh "r" in
      pose proof (N.div_mod a b ltac:(discriminate)); pose proof (N.mod_lt a b ltac:(discriminate)); set (q := a / b) in *; set (r := a mod b) in *; clearbody q r
  end.

Lemma decode_encode r s : scalar r -> decode_rune (encode_rune r ++ s) = Some (r, length (encode_rune r)).
Proof.
  intros Hr. unfold encode_rune. destruct (r <? 128) eqn:E1.
  { apply N.ltb_lt in E1. cbn [app decode_rune]. rewrite byte_of by lia. apply N.ltb_lt in E1. rewrite E1. reflexivity. }
  apply N.ltb_ge in E1. destruct (r <? 2048) eqn:E2.
  { apply N.ltb_lt in E2. cbn [app decode_rune length].
    pose proof (N.div_mod r 64 ltac:(discriminate)). pose proof (N.mod_lt r 64 ltac:(discriminate)). set (q := r / 64) in *. set (m := r mod 64) in *. clearbody q m.
    rewrite !byte_of by lia. destruct (_ <? _) eqn:E; [apply N.ltb_lt in E; lia|]. clear E. unfold tail_byte.
    rewrite (proj2 (within_true 194 (192 + q) 223)), (proj2 (within_true 128 (128 + m) 191)) by lia. simpl. f_equal. f_equal. lia. }
  apply N.ltb_ge in E2. destruct (within 55296 r 57343 || (1114111 <? r)) eqn:E3.
  { exfalso. apply orb_true_iff in E3 as [E3|E3]; [apply within_true in E3|apply N.ltb_lt in E3]; destruct Hr; lia. }
  clear Hr. apply orb_false_iff in E3 as [E3 E4]. apply within_false in E3. apply N.ltb_ge in E4.
  assert (D1 : r = 64 * (r / 64) + r mod 64) by (apply N.div_mod; discriminate). assert (M1 : r mod 64 < 64) by (apply N.mod_lt; discriminate).
  assert (D2 : r / 64 = 64 * (r / 4096) + (r / 64) mod 64). { replace 4096 with (64 * 64) by reflexivity. rewrite <- N.div_div by discriminate. apply N.div_mod. discriminate. }
  assert (M2 : (r / 64) mod 64 < 64) by (apply N.mod_lt; discriminate).
  destruct (r <? 65536) eqn:E5.
  { apply N.ltb_lt in E5. unfold encode_rune3. cbn [app decode_rune length].
    set (q := r / 64) in *. set (p := r / 4096) in *. set (a := r mod 64) in *. set (b := q mod 64) in *. clearbody q p a b.
    rewrite !byte_of by lia. destruct (_ <? _) eqn:E; [apply N.ltb_lt in E; lia|]. clear E. unfold tail_byte.
    rewrite (proj2 (within_false 194 (224 + p) 223)) by lia. cbn [andb]. rewrite (proj2 (within_true 224 (224 + p) 239)) by lia. rewrite (proj2 (within_true 128 (128 + a) 191)) by lia.
    rewrite (proj2 (within_true _ (128 + b) _)).
    - cbn [andb]. f_equal. f_equal. lia.
    - destruct (224 + p =? 224) eqn:Ea; destruct (224 + p =? 237) eqn:Eb; rewrite ?N.eqb_eq, ?N.eqb_neq in *; lia. }
  apply N.ltb_ge in E5.
  assert (D3 : r / 4096 = 64 * (r / 262144) + (r / 4096) mod 64). { replace 262144 with (4096 * 64) by reflexivity. rewrite <- N.div_div by discriminate. apply N.div_mod. discriminate. }
  assert (M3 : (r / 4096) mod 64 < 64) by (apply N.mod_lt; discriminate).
  cbn [app decode_rune length].
  set (q := r / 64) in *. set (p := r / 4096) in *. set (o := r / 262144) in *. set (a := r mod 64) in *. set (b := q mod 64) in *. set (c := p mod 64) in *. clearbody q p o a b c.
  rewrite !byte_of by lia. destruct (_ <? _) eqn:E; [apply N.ltb_lt in E; lia|]. clear E. unfold tail_byte.
  rewrite (proj2 (within_false 194 (240 + o) 223)) by lia. cbn [andb]. rewrite (proj2 (within_false 224 (240 + o) 239)) by lia. cbn [andb].
  rewrite (proj2 (within_true 240 (240 + o) 244)) by lia. rewrite (proj2 (within_true 128 (128 + a) 191)), (proj2 (within_true 128 (128 + b) 191)) by lia.
  rewrite (proj2 (within_true _ (128 + c) _)).
  - cbn [andb]. f_equal. f_equal. lia.
  - destruct (240 + o =? 240) eqn:Ea; destruct (240 + o =? 244) eqn:Eb; rewrite ?N.eqb_eq, ?N.eqb_neq in *; lia.
Qed.

Lemma encode_ne r : encode_rune r <> [].
Proof. unfold encode_rune, encode_rune3. repeat destruct (_ <? _); repeat destruct (_ || _); discriminate. Qed.
Lemma encode_len r : (1 <= length (encode_rune r))%nat.
Proof. pose proof (encode_ne r). destruct (encode_rune r); [contradiction|simpl; lia]. Qed.

(** A rune read from more than a stray byte is written back as it was. *)
Lemma decode_range s r n : decode_rune s = Some (r, n) ->
  (1 <= n <= length s)%nat /\ ((r = rune_error /\ n = 1%nat /\ exists a s', s = a :: s' /\ 128 <= byte a) \/ (scalar r /\ take n s = encode_rune r)).
Proof.
  unfold decode_rune, tail_byte. intros H.
  assert (Hmk : forall lo x hi y, within lo x hi = true -> y = x -> lo <= y <= hi) by (intros ???? Hb ->; apply within_true; exact Hb).
  destruct s as [|a s1]; [discriminate|]. pose proof (byte_lt a). destruct (byte a <? 128) eqn:E1.
  { injection H as <- <-. split; [simpl; lia|]. right. apply N.ltb_lt in E1. split; [left; lia|]. unfold encode_rune. apply N.ltb_lt in E1. rewrite E1, of_byte_byte. destruct s1; reflexivity. }
  apply N.ltb_ge in E1. assert (Bad : (rune_error, 1%nat) = (r, n) -> ((1 <= n <= length (a :: s1))%nat /\ ((r = rune_error /\ n = 1%nat /\ exists a' s', a :: s1 = a' :: s' /\ 128 <= byte a') \/ (scalar r /\ take n (a :: s1) = encode_rune r)))).
  { intros E. injection E as <- <-. split; [simpl; lia|]. left. eauto 10. }
  destruct s1 as [|b s2]; [injection H as H; apply Bad; congruence|]. pose proof (byte_lt b).
  destruct (within 194 (byte a) 223 && within 128 (byte b) 191) eqn:E2.
  { injection H as <- <-. split; [simpl; lia|]. right. apply andb_true_iff in E2 as [E2 E3]. apply within_true in E2, E3.
    split; [left; lia|]. unfold encode_rune. remember ((byte a - 192) * 64 + (byte b - 128)) as v eqn:Ev.
    destruct (v <? 128) eqn:F1; [apply N.ltb_lt in F1; lia|]. destruct (v <? 2048) eqn:F2; [|apply N.ltb_ge in F2; lia].
    assert (Hq : v / 64 = byte a - 192) by (symmetry; apply (N.div_unique _ _ _ (byte b - 128)); lia).
    assert (Hm : v mod 64 = byte b - 128) by (symmetry; apply (N.mod_unique _ _ (byte a - 192)); lia).
    rewrite Hq, Hm. rewrite (of_byte_eq a) by lia. rewrite (of_byte_eq b) by lia. destruct s2; reflexivity. }
  destruct s2 as [|c s3]; [injection H as H; apply Bad; congruence|]. pose proof (byte_lt c).
  destruct (_ && _ && within 128 (byte c) 191) eqn:E3 in H.
  { injection H as <- <-. split; [simpl; lia|]. right. apply andb_true_iff in E3 as [E3 E4]. apply andb_true_iff in E3 as [E3 E5]. apply within_true in E3, E4, E5. clear E2 Bad.
    assert (Hy : 128 <= byte b <= 191). { destruct (byte a =? 224), (byte a =? 237); lia. }
    remember ((byte a - 224) * 4096 + (byte b - 128) * 64 + (byte c - 128)) as v eqn:Ev.
    assert (Hlow : 2048 <= v). { destruct (byte a =? 224) eqn:Ea; rewrite ?N.eqb_eq, ?N.eqb_neq in *; lia. }
    assert (Hsur : v < 55296 \/ 57343 < v). { destruct (byte a =? 237) eqn:Ea; rewrite ?N.eqb_eq, ?N.eqb_neq in *; destruct (byte a =? 224) eqn:Eb; rewrite ?N.eqb_eq, ?N.eqb_neq in *; lia. }
    split; [unfold scalar; lia|]. unfold encode_rune.
    destruct (v <? 128) eqn:F1; [apply N.ltb_lt in F1; lia|]. destruct (v <? 2048) eqn:F2; [apply N.ltb_lt in F2; lia|].
    rewrite (proj2 (within_false 55296 v 57343)) by lia. destruct (1114111 <? v) eqn:F3; [apply N.ltb_lt in F3; lia|]. cbn [orb].
    destruct (v <? 65536) eqn:F4; [|apply N.ltb_ge in F4; lia]. unfold encode_rune3.
    assert (Hq : v / 4096 = byte a - 224) by (symmetry; apply (N.div_unique _ _ _ ((byte b - 128) * 64 + (byte c - 128))); lia).
    assert (Hq2 : v / 64 = (byte a - 224) * 64 + (byte b - 128)) by (symmetry; apply (N.div_unique _ _ _ (byte c - 128)); lia).
    assert (Hm2 : (v / 64) mod 64 = byte b - 128) by (rewrite Hq2; symmetry; apply (N.mod_unique _ _ (byte a - 224)); lia).
    assert (Hm : v mod 64 = byte c - 128) by (symmetry; apply (N.mod_unique _ _ (v / 64)); lia).
    rewrite Hq, Hm, Hm2. rewrite (of_byte_eq a), (of_byte_eq b), (of_byte_eq c) by lia. destruct s3; reflexivity. }
  destruct s3 as [|d s4]; [injection H as H; apply Bad; congruence|]. pose proof (byte_lt d).
  destruct (_ && _ && _ && within 128 (byte d) 191) eqn:E4 in H; [|injection H as H; apply Bad; congruence].
  injection H as <- <-. split; [simpl; lia|]. right. clear E2 E3 Bad. apply andb_true_iff in E4 as [E4 E5]. apply andb_true_iff in E4 as [E4 E6]. apply andb_true_iff in E4 as [E4 E7]. apply within_true in E4, E5, E6, E7.
  assert (Hy : 128 <= byte b <= 191). { destruct (byte a =? 240), (byte a =? 244); lia. }
  remember ((byte a - 240) * 262144 + (byte b - 128) * 4096 + (byte c - 128) * 64 + (byte d - 128)) as v eqn:Ev.
  assert (Hlow : 65536 <= v). { destruct (byte a =? 240) eqn:Ea; rewrite ?N.eqb_eq, ?N.eqb_neq in *; lia. }
  assert (Hhigh : v <= 1114111). { destruct (byte a =? 244) eqn:Ea; rewrite ?N.eqb_eq, ?N.eqb_neq in *; destruct (byte a =? 240) eqn:Eb; rewrite ?N.eqb_eq, ?N.eqb_neq in *; lia. }
  split; [unfold scalar; lia|]. unfold encode_rune.
  destruct (v <? 128) eqn:F1; [apply N.ltb_lt in F1; lia|]. destruct (v <? 2048) eqn:F2; [apply N.ltb_lt in F2; lia|].
  rewrite (proj2 (within_false 55296 v 57343)) by lia. destruct (1114111 <? v) eqn:F3; [apply N.ltb_lt in F3; lia|]. cbn [orb].
  destruct (v <? 65536) eqn:F4; [apply N.ltb_lt in F4; lia|].
  assert (Hq : v / 262144 = byte a - 240) by (symmetry; apply (N.div_unique _ _ _ ((byte b - 128) * 4096 + (byte c - 128) * 64 + (byte d - 128))); lia).
  assert (Hq3 : v / 4096 = (byte a - 240) * 64 + (byte b - 128)) by (symmetry; apply (N.div_unique _ _ _ ((byte c - 128) * 64 + (byte d - 128))); lia).
  assert (Hm3 : (v / 4096) mod 64 = byte b - 128) by (rewrite Hq3; symmetry; apply (N.mod_unique _ _ (byte a - 240)); lia).
  assert (Hq2 : v / 64 = (v / 4096) * 64 + (byte c - 128)) by (symmetry; apply (N.div_unique _ _ _ (byte d - 128)); lia).
  assert (Hm2 : (v / 64) mod 64 = byte c - 128) by (rewrite Hq2; symmetry; apply (N.mod_unique _ _ (v / 4096)); lia).
  assert (Hm : v mod 64 = byte d - 128) by (symmetry; apply (N.mod_unique _ _ (v / 64)); lia).
  rewrite Hq, Hm, Hm2, Hm3. rewrite (of_byte_eq a), (of_byte_eq b), (of_byte_eq c), (of_byte_eq d) by lia. destruct s4; reflexivity.
Qed.

Lemma units_fuel_enough fuel s : (length s <= fuel)%nat -> units_fuel fuel s = units s.
Proof.
  unfold units. remember (length s) as m eqn:Em. revert s Em fuel. induction m as [m IH] using lt_wf_ind. intros s -> fuel Hf.
  destruct s as [|a s0]; [destruct fuel; reflexivity|]. destruct fuel as [|fuel]; [simpl in Hf; lia|].
  assert (Hd : exists r n, decode_rune (a :: s0) = Some (r, n)).
  { unfold decode_rune. repeat (match goal with |- context [if ?b then _ else _] => destruct b | |- context [match ?l with _ => _ end] => destruct l end); eauto. }
  destruct Hd as (r & n & E). change (length (a :: s0)) with (S (length s0)). cbn [units_fuel]. rewrite E. f_equal.
  pose proof (decode_range _ _ _ E) as [Hn _]. simpl in Hn, Hf.
  assert (Hlen : length (drop n (a :: s0)) = (S (length s0) - n)%nat) by (rewrite drop_length; reflexivity).
  rewrite (IH (length (drop n (a :: s0))) ltac:(rewrite Hlen; simpl; lia) _ eq_refl fuel) by (rewrite Hlen; lia).
  symmetry. apply (IH (length (drop n (a :: s0))) ltac:(rewrite Hlen; simpl; lia) _ eq_refl). rewrite Hlen. lia.
Qed.

Lemma units_step s r n : decode_rune s = Some (r, n) -> units s = (r, take n s) :: units (drop n s).
Proof.
  intros E. pose proof (decode_range _ _ _ E) as [Hn _]. destruct s as [|a s0]; [discriminate|].
  unfold units at 1. change (length (a :: s0)) with (S (length s0)). cbn [units_fuel]. rewrite E. f_equal. apply units_fuel_enough. rewrite drop_length. simpl in *. lia.
Qed.
Lemma units_nil : units [] = [].
Proof. reflexivity. Qed.
Lemma decode_some a s : exists r n, decode_rune (a :: s) = Some (r, n).
Proof. unfold decode_rune. repeat (match goal with |- context [if ?b then _ else _] => destruct b | |- context [match ?l with _ => _ end] => destruct l end); eauto. Qed.

(** Induction over the runes of a string. *)
Lemma units_ind (P : str -> Prop) : P [] -> (forall s r n, decode_rune s = Some (r, n) -> P (drop n s) -> P s) -> forall s, P s.
Proof.
  intros H0 HS s. remember (length s) as m eqn:Em. revert s Em. induction m as [m IH] using lt_wf_ind. intros s ->.
  destruct s as [|a s0]; [exact H0|]. destruct (decode_some a s0) as (r & n & E). apply (HS _ _ _ E). pose proof (decode_range _ _ _ E) as [Hn _].
  apply (IH (length (drop n (a :: s0)))); [|reflexivity]. rewrite drop_length. simpl in *. lia.
Qed.

(** Nothing is lost by reading a string as runes. *)
Lemma units_concat s : concat (units s).*2 = s.
Proof.
  induction s as [|s r n E IH] using units_ind; [reflexivity|]. rewrite (units_step _ _ _ E). rewrite fmap_cons. etransitivity; [|apply (take_drop n s)]. exact (f_equal (app (take n s)) IH).
Qed.
Lemma units_each s : Forall (fun u : N * str => (scalar u.1 /\ u.2 = encode_rune u.1) \/ (u.1 = rune_error /\ exists a, u.2 = [a] /\ 128 <= byte a)) (units s).
Proof.
  induction s as [|s r n E IH] using units_ind; [constructor|]. rewrite (units_step _ _ _ E). constructor; [|exact IH]. simpl.
  destruct (decode_range _ _ _ E) as [_ [(-> & -> & a & s' & -> & Ha)|H]]; [right|left; exact H]. split; [reflexivity|]. exists a. split; [destruct s'; reflexivity|exact Ha].
Qed.

(** Well-formed text is read as what it is. *)
Lemma runes_text s l : text s l -> units s = map (fun r => (r, encode_rune r)) l.
Proof.
  intros [Hl ->]. induction Hl as [|r l Hr _ IH]; [reflexivity|]. simpl. erewrite units_step by (apply decode_encode; exact Hr).
  rewrite take_app, drop_app. simpl. f_equal. exact IH.
Qed.
Lemma runes_of_text s l : text s l -> runes s = l.
Proof. intros H. unfold runes. rewrite (runes_text _ _ H). rewrite <- list_fmap_compose. apply list_fmap_id. Qed.
Lemma text_runes s l : text s l -> of_runes (runes s) = s.
Proof. intros H. rewrite (runes_of_text _ _ H). destruct H as [_ ->]. reflexivity. Qed.
Lemma text_unique s l l' : text s l -> text s l' -> l = l'.
Proof. intros H H'. rewrite <- (runes_of_text _ _ H). apply runes_of_text. exact H'. Qed.

(** A byte below 128 stands for itself and is never part of another rune. *)
Lemma encode_ascii r : r < 128 -> encode_rune r = [of_byte r].
Proof. intros H. unfold encode_rune. apply N.ltb_lt in H. rewrite H. reflexivity. Qed.
Lemma encode_high r : 128 <= r -> Forall (fun c => 128 <= byte c) (encode_rune r).
Proof.
  intros H. unfold encode_rune. destruct (r <? 128) eqn:E; [apply N.ltb_lt in E; lia|].
  assert (M : forall x, 128 <= byte (of_byte (128 + x mod 64))). { intros x. pose proof (N.mod_lt x 64 ltac:(discriminate)) as Hm. set (m := x mod 64) in *. clearbody m. rewrite byte_of by lia. lia. }
  destruct (r <? 2048) eqn:E2.
  { apply N.ltb_lt in E2. assert (r / 64 < 32) by (apply N.div_lt_upper_bound; lia). set (q := r / 64) in *. unfold encode_rune3; repeat (apply Forall_cons; split); try apply Forall_nil; try apply M; try exact I; fold q; rewrite byte_of by lia; lia. }
  destruct (_ || _) eqn:E3; [repeat constructor; unfold rune_error; simpl; discriminate|]. apply orb_false_iff in E3 as [_ E3]. apply N.ltb_ge in E3.
  destruct (r <? 65536) eqn:E4.
  { apply N.ltb_lt in E4. assert (r / 4096 < 16) by (apply N.div_lt_upper_bound; lia). set (q := r / 4096) in *. unfold encode_rune3; repeat (apply Forall_cons; split); try apply Forall_nil; try apply M; try exact I; fold q; rewrite byte_of by lia; lia. }
  assert (r / 262144 < 5) by (apply N.div_lt_upper_bound; [discriminate|lia]). set (q := r / 262144) in *. unfold encode_rune3; repeat (apply Forall_cons; split); try apply Forall_nil; try apply M; try exact I; fold q; rewrite byte_of by lia; lia.
Qed.
Lemma low_rune s c : c ∈ s -> byte c < 128 -> byte c ∈ runes s.
Proof.
  intros Hc Hb. rewrite <- (units_concat s) in Hc. unfold runes. pose proof (units_each s) as He. induction He as [|u l Hu _ IH]; simpl in *; [inversion Hc|].
  apply elem_of_app in Hc as [Hc|Hc]; [|right; apply IH; exact Hc]. apply elem_of_cons. left. destruct Hu as [[_ E]|(E1 & a & E2 & Ha)].
  - destruct (N.lt_ge_cases u.1 128) as [Hlt|Hge].
    + rewrite E, encode_ascii in Hc by exact Hlt. apply elem_of_list_singleton in Hc as ->. apply byte_of. eapply N.lt_trans; [exact Hlt|reflexivity].
    + pose proof (encode_high _ Hge) as Hh. rewrite E in Hc. rewrite Forall_forall in Hh. specialize (Hh _ Hc). simpl in Hh. lia.
  - exfalso. rewrite E2 in Hc. apply elem_of_list_singleton in Hc as ->. lia.
Qed.
