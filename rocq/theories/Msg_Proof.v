(** Facts about quoted names and formatted messages. *)
From Verif Require Import Base Types_Model Utf8_Model Utf8_Spec Utf8_Proof Path_Model Doc_Model Out_Model Out_Proof Loc_Model Msg_Model.

(** ** Hexadecimal digits *)

Lemma hex_length k n : length (hex k n) = k.
Proof. revert n. induction k as [|k IH]; intros n; [reflexivity|]. cbn [hex]. rewrite app_length, IH. simpl. lia. Qed.
Lemma hex_digit_byte n : (n < 16)%N -> byte (hex_digit n) = (if n <? 10 then 48 + n else 87 + n)%N.
Proof. intros H. unfold hex_digit. apply byte_of. destruct (n <? 10)%N; lia. Qed.
Lemma hex_digit_inj a b : (a < 16)%N -> (b < 16)%N -> hex_digit a = hex_digit b -> a = b.
Proof.
  intros Ha Hb E. apply (f_equal byte) in E. rewrite !hex_digit_byte in E by assumption.
  destruct (N.ltb_spec a 10), (N.ltb_spec b 10); lia.
Qed.
Lemma hex_inj k a b : (a < 16 ^ N.of_nat k)%N -> (b < 16 ^ N.of_nat k)%N -> hex k a = hex k b -> a = b.
Proof.
  revert a b. induction k as [|k IH]; intros a b Ha Hb E; [simpl in Ha, Hb; lia|].
  rewrite Nat2N.inj_succ, N.pow_succ_r' in Ha, Hb. cbn [hex] in E.
  apply app_inj_2 in E as [E1 E2]; [|reflexivity]. injection E2 as E2.
  apply hex_digit_inj in E2; [|apply N.mod_lt; discriminate|apply N.mod_lt; discriminate].
  apply IH in E1; [|apply N.div_lt_upper_bound; [discriminate|exact Ha]|apply N.div_lt_upper_bound; [discriminate|exact Hb]].
  rewrite (N.div_mod a 16), (N.div_mod b 16) by discriminate. congruence.
Qed.

(** ** Quoted strings end where they end *)

Section Quote.
  Context (is_print : N -> bool).
  Notation esc := (escape_unit is_print).
  Notation erune := (escape_rune is_print).

  Definition good_unit (u : N * str) : Prop := (scalar u.1 /\ u.2 = encode_rune u.1) \/ (u.1 = rune_error /\ exists a, u.2 = [a] /\ (128 <= byte a)%N).

  (** How a chunk begins: a backslash and what kind of escape it is, or the rune itself. *)
  Inductive chunk : N * str -> str -> Prop :=
  | ch_plain r : scalar r -> r <> 34%N -> r <> 92%N -> chunk (r, encode_rune r) (encode_rune r)
  | ch_self r : r = 34%N \/ r = 92%N -> chunk (r, encode_rune r) [backslash; of_byte r]
  | ch_letter r c : control_letter r = Some c -> chunk (r, encode_rune r) [backslash; c]
  | ch_low r : (r < 128)%N -> chunk (r, encode_rune r) (backslash :: "x"%char :: hex 2 r)
  | ch_byte a : (128 <= byte a)%N -> chunk (rune_error, [a]) (backslash :: "x"%char :: hex 2 (byte a))
  | ch_u r : (r < 65536)%N -> chunk (r, encode_rune r) (backslash :: "u"%char :: hex 4 r)
  | ch_U r : (r <= 1114111)%N -> chunk (r, encode_rune r) (backslash :: "U"%char :: hex 8 r).

  Lemma encode_one r c : encode_rune r = [c] -> (r < 128)%N.
  Proof.
    unfold encode_rune, encode_rune3. destruct (N.ltb_spec r 128) as [H|H]; [intros _; exact H|].
    repeat destruct (_ <? _)%N; try discriminate; repeat destruct (_ || _)%bool; try discriminate; repeat destruct (_ <? _)%N; discriminate.
  Qed.
  Lemma chunk_of u : good_unit u -> chunk u (esc u).
  Proof.
    intros [[Hs Hb]|(E & a & Hb & Ha)]; destruct u as [r b]; cbn [fst snd] in *.
    - assert (Hr : (r <= 1114111)%N) by (unfold scalar in Hs; lia).
      assert (G : chunk (r, b) (erune r)).
      { subst b. unfold escape_rune. destruct (N.eqb_spec r 34) as [->|N1]; [apply ch_self; left; reflexivity|].
        destruct (N.eqb_spec r 92) as [->|N2]; [apply ch_self; right; reflexivity|]. simpl orb. cbn match.
        destruct (is_print r); [apply ch_plain; assumption|]. destruct (control_letter r) as [c|] eqn:Ec; [apply ch_letter; exact Ec|].
        destruct ((r <? 32)%N || (r =? 127)%N) eqn:E.
        - apply ch_low. apply orb_true_iff in E as [E|E]; [apply N.ltb_lt in E|apply N.eqb_eq in E]; lia.
        - destruct (N.ltb_spec r 65536); [apply ch_u; assumption|apply ch_U; assumption]. }
      unfold escape_unit. cbn [fst snd]. destruct b as [|c [|]]; [exact G| |exact G]. destruct (N.eqb_spec r rune_error) as [->|_]; [|exact G].
      symmetry in Hb. apply encode_one in Hb. vm_compute in Hb. discriminate Hb.
    - subst b r. unfold escape_unit. cbn [fst snd]. rewrite N.eqb_refl. apply ch_byte. exact Ha.
  Qed.

  Lemma encode_head r c x : scalar r -> encode_rune r = c :: x -> (byte c < 128)%N -> r = byte c.
  Proof.
    intros Hs E Hc. destruct (N.lt_ge_cases r 128) as [H|H].
    - rewrite encode_ascii in E by exact H. injection E as <- _. rewrite byte_of by lia. reflexivity.
    - pose proof (encode_high r H) as G. rewrite E in G. inversion G. lia.
  Qed.
  Lemma control_letter_spec r c : control_letter r = Some c -> c <> "x"%char /\ c <> "u"%char /\ c <> "U"%char /\ c <> of_byte 34 /\ c <> of_byte 92 /\ (r < 128)%N.
  Proof. unfold control_letter. destruct r as [|p]; [discriminate|]. repeat (destruct p as [p|p|]; try discriminate); intros H; injection H as <-; repeat split; discriminate. Qed.
  Lemma control_letter_inj r r' c : control_letter r = Some c -> control_letter r' = Some c -> r = r'.
  Proof.
    unfold control_letter. destruct r as [|p]; [discriminate|]. destruct r' as [|p']; [intros _; discriminate|].
    repeat (destruct p as [p|p|]; try discriminate); intros H; injection H as <-;
      repeat (destruct p' as [p'|p'|]; try discriminate); reflexivity.
  Qed.

  (** Two chunks that begin two equal texts are the same chunk for the same unit. *)
  Lemma chunk_unique u v cu cv x y : chunk u cu -> chunk v cv -> cu ++ x = cv ++ y -> u = v /\ x = y.
  Proof.
    assert (Hback : byte backslash = 92%N) by reflexivity.
    assert (P : forall r (z : str), scalar r -> r <> 92%N -> forall c z', encode_rune r ++ z = c :: z' -> c <> backslash).
    { intros r z Hs Hr c z' E ->. destruct (encode_rune r) as [|d l] eqn:El; [exact (encode_ne _ El)|]. injection E as -> _. apply (encode_head r backslash l) in El; [congruence|exact Hs|rewrite Hback; reflexivity]. }
    assert (H8 : (16 ^ N.of_nat 8 = 4294967296)%N) by reflexivity. assert (H4 : (16 ^ N.of_nat 4 = 65536)%N) by reflexivity. assert (H2 : (16 ^ N.of_nat 2 = 256)%N) by reflexivity.
    assert (HX : forall k a b, (a < 16 ^ N.of_nat k)%N -> (b < 16 ^ N.of_nat k)%N -> hex k a ++ x = hex k b ++ y -> a = b /\ x = y).
    { intros k a b Ha Hb E. apply app_inj_1 in E as [E1 E2]; [|rewrite !hex_length; reflexivity]. split; [apply (hex_inj k); assumption|exact E2]. }
    intros Hu Hv E.
    destruct Hu as [r Hs N1 N2|r Hr|r c Hc|r Hr|a Ha|r Hr|r Hr].
    { destruct Hv as [r' Hs' N1' N2'|r' Hr'|r' c' Hc'|r' Hr'|a' Ha'|r' Hr'|r' Hr']; try (exfalso; exact (P r x Hs N2 _ _ E eq_refl)).
      pose proof (decode_encode r x Hs) as D. rewrite E, (decode_encode r' y Hs') in D. injection D as -> _. apply app_inv_head in E. auto. }
    all: destruct Hv as [r' Hs' N1' N2'|r' Hr'|r' c' Hc'|r' Hr'|a' Ha'|r' Hr'|r' Hr']; try (exfalso; symmetry in E; exact (P r' y Hs' N2' _ _ E eq_refl)).
    all: cbn [app] in E; try discriminate E.
    all: try (destruct Hr as [-> | ->]); try (destruct Hr' as [-> | ->]); try discriminate E.
    all: try (apply control_letter_spec in Hc as Sc; destruct Sc as (S1 & S2 & S3 & S4 & S5 & S6)); try (apply control_letter_spec in Hc' as Sc'; destruct Sc' as (S1' & S2' & S3' & S4' & S5' & S6')).
    all: try (injection E as E1 E2; exfalso; first [exact (S1 E1)|exact (S2 E1)|exact (S3 E1)|exact (S4 E1)|exact (S5 E1)|symmetry in E1; first [exact (S1' E1)|exact (S2' E1)|exact (S3' E1)|exact (S4' E1)|exact (S5' E1)]]).
    all: try (injection E as E1 E2; subst c'; rewrite (control_letter_inj r r' c Hc Hc'); split; [reflexivity|exact E2]).
    all: try (injection E as E2; split; [reflexivity|exact E2]).
    all: apply (f_equal (drop 2)) in E; cbn [drop] in E; apply HX in E as [E1 E2]; try (rewrite ?H2, ?H4, ?H8; (lia || apply byte_lt)).
    all: pose proof (byte_lt) as B; subst; try (split; [reflexivity|reflexivity || assumption]).
    all: try lia.
    all: try (apply (f_equal of_byte) in E1; rewrite !of_byte_byte in E1; subst; split; reflexivity).
  Qed.
  Lemma chunk_no_quote u c : chunk u c -> exists d r, c = d :: r /\ d <> quote_char.
  Proof.
    intros H. destruct H as [r Hs N1 N2|r Hr|r c Hc|r Hr|a Ha|r Hr|r Hr]; try (eexists _, _; split; [reflexivity|discriminate]).
    destruct (encode_rune r) as [|d l] eqn:El; [destruct (encode_ne _ El)|]. exists d, l. split; [reflexivity|]. intros ->. apply (encode_head r quote_char l) in El; [exact (N1 El)|exact Hs|reflexivity].
  Qed.

  Lemma escaped_unique us vs x y : Forall good_unit us -> Forall good_unit vs ->
    concat (map esc us) ++ quote_char :: x = concat (map esc vs) ++ quote_char :: y -> us = vs /\ x = y.
  Proof.
    intros Hu. revert vs. induction Hu as [|u us Hu _ IH]; intros vs Hv E; destruct Hv as [|v vs Hv Hvs]; cbn [map concat app] in E.
    - injection E as E. auto.
    - exfalso. destruct (chunk_no_quote _ _ (chunk_of v Hv)) as (d & r & Ed & Hd). rewrite Ed in E. injection E as E _. congruence.
    - exfalso. destruct (chunk_no_quote _ _ (chunk_of u Hu)) as (d & r & Ed & Hd). rewrite Ed in E. injection E as E _. congruence.
    - rewrite <- !app_assoc in E. apply (chunk_unique u v) in E as [-> E]; [|apply chunk_of; assumption|apply chunk_of; assumption].
      apply IH in E as [-> ->]; [|exact Hvs]. auto.
  Qed.
  Lemma quote_unique s t x y : quote is_print s ++ x = quote is_print t ++ y -> s = t /\ x = y.
  Proof.
    unfold quote. intros E. cbn [app] in E. injection E as E. rewrite <- !app_assoc in E. apply escaped_unique in E as [E ->].
    - split; [|reflexivity]. rewrite <- (units_concat s), <- (units_concat t), E. reflexivity.
    - apply units_each.
    - apply units_each.
  Qed.
End Quote.

(** ** Numbers end at the first character that is no digit *)

Definition digitb (c : ascii) : bool := (48 <=? code c) && (code c <=? 57).
Lemma digit_digitb d : d < 10 -> digitb (Out_Model.digit d) = true.
Proof. intros H. do 10 (destruct d as [|d]; [reflexivity|]). lia. Qed.
Lemma itoa_digits n : Forall (fun c => digitb c = true) (itoa n).
Proof.
  induction n as [n IH] using lt_wf_ind. rewrite itoa_step. destruct (Nat.ltb_spec n 10) as [Hn|Hn].
  - repeat constructor. apply digit_digitb. exact Hn.
  - apply Forall_app. split; [apply IH, Nat.div_lt; lia|]. repeat constructor. apply digit_digitb, Nat.mod_upper_bound. lia.
Qed.
Definition no_digit_first (x : str) : Prop := match x with c :: _ => digitb c = false | [] => True end.
Lemma digits_end (a b x y : str) : Forall (fun c => digitb c = true) a -> Forall (fun c => digitb c = true) b -> no_digit_first x -> no_digit_first y ->
  a ++ x = b ++ y -> a = b /\ x = y.
Proof.
  intros Ha Hb Hx Hy. revert b Hb. induction Ha as [|c a Hc _ IH]; intros b Hb E; destruct Hb as [|d b Hd Hb]; cbn [app] in E.
  - auto.
  - subst x. simpl in Hx. congruence.
  - subst y. simpl in Hy. congruence.
  - injection E as -> E. apply IH in E as [-> ->]; auto.
Qed.
Lemma itoa_first n : exists c r, itoa n = c :: r /\ digitb c = true.
Proof. pose proof (itoa_digits n) as H. destruct (itoa n) as [|c r] eqn:E; [destruct (itoa_ne n E)|]. inversion H. eauto. Qed.
Lemma num_unique a b x y : no_digit_first x -> no_digit_first y -> itoa_z a ++ x = itoa_z b ++ y -> a = b /\ x = y.
Proof.
  intros Hx Hy. unfold itoa_z. destruct (itoa_first (Z.abs_nat a)) as (c & r & Ec & Hc), (itoa_first (Z.abs_nat b)) as (d & s & Ed & Hd).
  destruct (Z.ltb_spec a 0), (Z.ltb_spec b 0); intros E.
  - cbn [app] in E. injection E as E. apply digits_end in E as [E ->]; [|apply itoa_digits|apply itoa_digits|assumption|assumption]. apply itoa_inj in E. split; [lia|reflexivity].
  - exfalso. rewrite Ed in E. cbn [app] in E. injection E as <- _. discriminate Hd.
  - exfalso. rewrite Ec in E. cbn [app] in E. injection E as -> _. discriminate Hc.
  - apply digits_end in E as [E ->]; [|apply itoa_digits|apply itoa_digits|assumption|assumption]. apply itoa_inj in E. split; [lia|reflexivity].
Qed.
Lemma itoa_z_first z : exists c r, itoa_z z = c :: r /\ (digitb c || bool_decide (c = "-"%char)) = true.
Proof.
  unfold itoa_z. destruct (z <? 0)%Z; [eexists _, _; split; reflexivity|]. destruct (itoa_first (Z.abs_nat z)) as (c & r & -> & Hc). exists c, r. rewrite Hc. auto.
Qed.

(** ** Formats *)

(** Arguments that fit a format. *)
Fixpoint fits (f : list tok) (args : list arg) : bool :=
  match f, args with
  | [], [] => true
  | TC _ :: f', _ => fits f' args
  | (TQ | TS) :: f', AStr _ :: args' => fits f' args'
  | TD :: f', ANum _ :: args' => fits f' args'
  | _, _ => false
  end.
(** What follows a number does not begin with a digit. *)
Definition ends_number (f : list tok) : bool :=
  match f with TC c :: _ => negb (digitb c) | TQ :: _ | [] => true | _ => false end.
(** The arguments of a format can be read back. *)
Fixpoint readable (f : list tok) : bool :=
  match f with
  | [] => true
  | TC _ :: f' | TQ :: f' => readable f'
  | TD :: f' => ends_number f' && readable f'
  | TS :: f' => match f' with [] => true | _ => false end
  end.
(** Two formats that never print the same text. *)
Fixpoint apart (f g : list tok) : bool :=
  match f, g with
  | TC c :: f', TC d :: g' => if decide (c = d) then apart f' g' else true
  | TQ :: f', TQ :: g' => apart f' g'
  | TD :: f', TD :: g' => ends_number f' && ends_number g' && apart f' g'
  | TC c :: _, TQ :: _ | TQ :: _, TC c :: _ => negb (bool_decide (c = quote_char))
  | TC c :: _, TD :: _ | TD :: _, TC c :: _ => negb (digitb c || bool_decide (c = "-"%char))
  | TQ :: _, TD :: _ | TD :: _, TQ :: _ => true
  | [], (TC _ | TQ | TD) :: _ | (TC _ | TQ | TD) :: _, [] => true
  | _, _ => false
  end.

Section Formats.
  Context (is_print : N -> bool).
  Notation sprintf := (sprintf is_print).

  Lemma ends_number_spec f args : fits f args = true -> ends_number f = true -> no_digit_first (sprintf f args).
  Proof.
    destruct f as [|[c| | |] f]; intros Hf He; try discriminate He; [exact I| |].
    - cbn [ends_number] in He. apply negb_true_iff in He. exact He.
    - destruct args as [|[s|z] args]; try discriminate Hf. reflexivity.
  Qed.

  Lemma read_back f a b : readable f = true -> fits f a = true -> fits f b = true -> sprintf f a = sprintf f b -> a = b.
  Proof.
    revert a b. induction f as [|t f IH]; intros a b Hr Ha Hb E.
    - destruct a; [|discriminate Ha]. destruct b; [reflexivity|discriminate Hb].
    - destruct t as [c| | |].
      + injection E as E. apply IH; assumption.
      + destruct a as [|[s|z] a]; try discriminate Ha. destruct b as [|[s'|z'] b]; try discriminate Hb. cbn [Msg_Model.sprintf] in E. apply quote_unique in E as [-> E]. f_equal. apply IH; assumption.
      + destruct a as [|[s|z] a]; try discriminate Ha. destruct b as [|[s'|z'] b]; try discriminate Hb. cbn [Msg_Model.sprintf] in E. cbn [readable] in Hr. apply andb_true_iff in Hr as [He Hr].
        apply num_unique in E as [-> E]; [|apply ends_number_spec; assumption|apply ends_number_spec; assumption]. f_equal. apply IH; assumption.
      + destruct f; [|discriminate Hr]. destruct a as [|[s|z] [|]]; try discriminate Ha. destruct b as [|[s'|z'] [|]]; try discriminate Hb. cbn [Msg_Model.sprintf] in E. rewrite !app_nil_r in E. subst. reflexivity.
  Qed.

  Lemma quote_first s : exists r, quote is_print s = quote_char :: r.
  Proof. eexists. reflexivity. Qed.
  Lemma apart_spec f g a b : apart f g = true -> fits f a = true -> fits g b = true -> sprintf f a <> sprintf g b.
  Proof.
    revert g a b. induction f as [|t f IH]; intros g a b Hr Ha Hb E.
    - destruct g as [|[c| | |] g]; try discriminate Hr; [discriminate E|..]; (destruct b as [|[s|z] b]; try discriminate Hb); cbn [Msg_Model.sprintf] in E; [discriminate E|].
      destruct (itoa_z_first z) as (c & r & Ez & _). rewrite Ez in E. discriminate E.
    - destruct t as [c| | |]; destruct g as [|[d| | |] g]; try discriminate Hr; cbn [apart] in Hr.
      all: try (match type of Ha with fits (TC _ :: _) _ = _ => idtac | _ => destruct a as [|[s|z] a]; try discriminate Ha end).
      all: try (match type of Hb with fits (TC _ :: _) _ = _ => idtac | fits [] _ = _ => idtac | _ => destruct b as [|[s'|z'] b]; try discriminate Hb end).
      all: cbn [Msg_Model.sprintf] in E.
      all: try (destruct (itoa_z_first z) as (c1 & r1 & Ez1 & Hz1); rewrite ?Ez1 in E).
      all: try (destruct (itoa_z_first z') as (c2 & r2 & Ez2 & Hz2); rewrite ?Ez2 in E).
      + discriminate E.
      + injection E as Ec E. destruct (decide (c = d)); [|contradiction]. exact (IH _ _ _ Hr Ha Hb E).
      + injection E as Ec _. apply negb_true_iff in Hr. rewrite bool_decide_eq_false in Hr. contradiction.
      + injection E as -> _. rewrite Hz2 in Hr. discriminate Hr.
      + discriminate E.
      + injection E as Ec _. apply negb_true_iff in Hr. rewrite bool_decide_eq_false in Hr. congruence.
      + apply quote_unique in E as [_ E]. exact (IH _ _ _ Hr Ha Hb E).
      + injection E as <- _. discriminate Hz2.
      + discriminate E.
      + injection E as <- _. rewrite Hz1 in Hr. discriminate Hr.
      + injection E as -> _. discriminate Hz1.
      + apply andb_true_iff in Hr as [Hr Hp]. apply andb_true_iff in Hr as [H1 H2]. rewrite <- Ez1, <- Ez2 in E. apply num_unique in E as [_ E]; [|apply ends_number_spec; assumption|apply ends_number_spec; assumption]. exact (IH _ _ _ Hp Ha Hb E).
  Qed.

  Lemma fits_app f g a b : fits f a = true -> fits g b = true -> fits (f ++ g) (a ++ b) = true.
  Proof. revert a. induction f as [|[c| | |] f IH]; intros a Ha Hb; cbn [app fits] in *; [destruct a; [exact Hb|discriminate Ha]|exact (IH _ Ha Hb)|..]; (destruct a as [|[s|z] a]; try discriminate Ha); exact (IH _ Ha Hb). Qed.
  Lemma sprintf_app f g a b : fits f a = true -> sprintf (f ++ g) (a ++ b) = sprintf f a ++ sprintf g b.
  Proof.
    revert a. induction f as [|[c| | |] f IH]; intros a Ha; cbn [app fits Msg_Model.sprintf] in *; [destruct a; [reflexivity|discriminate Ha]|rewrite IH by exact Ha; reflexivity|..];
      (destruct a as [|[s|z] a]; try discriminate Ha); cbn [app]; rewrite IH by exact Ha; apply app_assoc.
  Qed.
End Formats.
