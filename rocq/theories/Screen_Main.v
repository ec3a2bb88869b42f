(** The invariant of runs with their output. *)
From Verif Require Import Base Interp_Model Cond_Model Types_Model Path_Model Run_Model Run_Spec Run_Logic Run_Inv Run_Proof Run_Facts P_Run P_Run_Cmd.
From Verif Require Import Label_Model Out_Model Out_Spec Out_Proof Dest_Spec Alone_Spec Alone_Proof P_Alone Screen_Model Screen_Spec Screen_Proof Screen_Inv.

(** ** Logs *)
Lemma by_command_app T pa l1 l2 : by_command T pa (l1 ++ l2) = by_command T pa l1 ++ by_command T pa l2.
Proof. apply omap_app. Qed.
Lemma by_bab_app l1 l2 : by_bab (l1 ++ l2) = by_bab l1 ++ by_bab l2.
Proof. apply omap_app. Qed.
Lemma by_command_same T pa w ls : by_command T pa (map (Entry (ByCommand T pa) w) ls) = ls.
Proof. induction ls as [|l ls IH]; [reflexivity|]. unfold by_command in *. simpl. rewrite decide_True by auto. f_equal. exact IH. Qed.
Lemma by_command_other T pa T' pa' w ls : ~ (T' = T /\ pa' = pa) -> by_command T pa (map (Entry (ByCommand T' pa') w) ls) = [].
Proof. intros Hn. induction ls as [|l ls IH]; [reflexivity|]. unfold by_command in *. simpl. rewrite decide_False by exact Hn. exact IH. Qed.
Lemma by_command_bab T pa ev w ls : by_command T pa (map (Entry (ByBab ev) w) ls) = [].
Proof. induction ls as [|l ls IH]; [reflexivity|]. exact IH. Qed.
Lemma by_bab_command T pa w ls : by_bab (map (Entry (ByCommand T pa) w) ls) = [].
Proof. induction ls as [|l ls IH]; [reflexivity|]. exact IH. Qed.
Lemma by_bab_same ev w ls : by_bab (map (Entry (ByBab ev) w) ls) = map (pair ev) ls.
Proof. induction ls as [|l ls IH]; [reflexivity|]. unfold by_bab in *. simpl. f_equal. exact IH. Qed.

Lemma wrote_app T pa s o1 o2 : wrote T pa s (o1 ++ o2) = wrote T pa s o1 ++ wrote T pa s o2.
Proof. unfold wrote. rewrite map_app, concat_app. reflexivity. Qed.
Lemma wrote_one x s d : wrote (x_task x) (x_path x) s [(x, s, d)] = d.
Proof. unfold wrote. simpl. rewrite decide_True by auto. apply app_nil_r. Qed.
Lemma wrote_other T pa s x s' d : ~ (x_task x = T /\ x_path x = pa /\ s' = s) -> wrote T pa s [(x, s', d)] = [].
Proof. intros H. unfold wrote. simpl. rewrite decide_False by exact H. reflexivity. Qed.

Lemma cuts_text s ls p : cuts s ls p -> s = typed ls ++ p.
Proof. induction 1 as [p _|l s ls p _ _ IH]; [reflexivity|]. rewrite IH. unfold typed. simpl. rewrite <- !app_assoc. reflexivity. Qed.
(** A text that ends with its line has nothing unfinished. *)
Lemma cuts_whole d ls p : cuts d ls p -> d = [] \/ (exists d', d = d' ++ [nl]) -> p = [].
Proof.
  intros H Hw. destruct p as [|c p'] using rev_ind; [reflexivity|]. exfalso. pose proof (cuts_no_nl _ _ _ H) as Hn. apply cuts_text in H.
  destruct Hw as [->|[d' ->]].
  - destruct (typed ls); [|discriminate H]. destruct p'; discriminate H.
  - rewrite app_assoc in H. apply app_inj_tail in H as [_ <-]. apply Hn. apply elem_of_app. right. left.
Qed.

Section Main.
  Context (k : config) (tasks : taskmap) (root : str) (Hkeyed : keyed tasks).
  Context (a : ansi_lib) (style : nat -> str -> str) (strip : spot -> bool) (says : event -> list str).
  Context (Hpre : forall it, nl ∉ prefix_at tasks style it) (Hshown : forall b l, nl ∉ l -> nl ∉ shown a b l) (Hsays : forall ev, Forall (fun l => nl ∉ l) (says ev)).
  Notation run_of := (run_of k tasks root).
  Notation carry := (carry a tasks style strip).
  Notation put := (put a tasks style strip).
  Notation flush_at := (flush_at a tasks style strip).
  Notation after := (after a tasks style strip says).

  Definition buf (c : screen) (tl : stream -> str) (s : stream) (w : spot) : str := match w with [] => tl s | _ => sc_part c s w end.
  Definition rows (log : list entry) : str := typed (map (fun e => carry (e_in e) (e_text e)) log).
  Lemma rows_app l1 l2 : rows (l1 ++ l2) = rows l1 ++ rows l2.
  Proof. unfold rows. rewrite map_app. apply typed_app. Qed.
  Lemma rows_map by_ w ls : rows (map (Entry by_ w) ls) = typed (map (carry w) ls).
  Proof. unfold rows. rewrite map_map. reflexivity. Qed.

  Definition moved (s : stream) (w : spot) (b : str) (ls : list str) (c : screen) (tl : stream -> str) (c' : screen) (tl' : stream -> str) : Prop :=
    (forall s' u, buf c' tl' s' u = if decide (s' = s /\ u = w) then b else buf c tl s' u) /\
    (forall R : stream -> str, (forall s', sc_tty c s' = R s' ++ tl s') -> forall s', sc_tty c' s' = R s' ++ (if decide (s' = s) then typed (map (carry w) ls) else []) ++ tl' s').
  Definition free (s : stream) (w : spot) (c : screen) (tl : stream -> str) : Prop := forall u, u `suffix_of` w -> u <> w -> buf c tl s u = [].

  Lemma free_clear s it w c tl : free s (it :: w) c tl -> clear s w c /\ tl s = [].
  Proof.
    intros H. split.
    - intros u Hu Hne. assert (E : buf c tl s u = []); [apply H; [apply suffix_cons_r; exact Hu|]|destruct u; [congruence|exact E]].
      intros ->. apply suffix_length in Hu. simpl in Hu. lia.
    - apply (H []); [apply suffix_nil|discriminate].
  Qed.
  Lemma moved_effect s it w b ls c tl c' : tl s = [] -> effect a tasks style strip s (it :: w) b ls c c' -> moved s (it :: w) b ls c tl c' tl.
  Proof.
    intros Ht [E1 E2]. split.
    - intros s' [|it' u]; simpl; [rewrite decide_False by (intros [_ E]; discriminate E); reflexivity|]. rewrite E1.
      destruct (decide (s' = s /\ it' :: u = it :: w)) as [[-> E]|Hn]; [rewrite decide_True by (split; [reflexivity|split; [exact E|discriminate]]); reflexivity|rewrite decide_False by tauto; reflexivity].
    - intros R HR s'. rewrite E2, HR. destruct (decide (s' = s)) as [->|]; [rewrite Ht, !app_nil_r|]; reflexivity.
  Qed.
  Lemma move_data s w data ls b c tl : free s w c tl -> cuts (buf c tl s w ++ data) ls b -> exists tl', moved s w b ls c tl (put s w data c) tl'.
  Proof.
    intros Hf Hc. destruct w as [|it w].
    - exists (fun s' => if decide (s' = s) then b else tl s'). split.
      + intros s' [|it' u]; simpl.
        * destruct (decide (s' = s)); [rewrite decide_True by auto|rewrite decide_False by tauto]; reflexivity.
        * rewrite decide_False by (intros [_ E]; discriminate E). reflexivity.
      + intros R HR s'. simpl. destruct (decide (s' = s)) as [->|]; [|apply HR]. rewrite HR, <- app_assoc. f_equal. simpl in Hc.
        rewrite (cuts_text _ _ _ Hc), map_id. reflexivity.
    - exists tl. apply free_clear in Hf as [H1 H2]. apply moved_effect; [exact H2|]. apply put_effect; assumption.
  Qed.
  Lemma move_flush s it w c tl : free s (it :: w) c tl -> nl ∉ sc_part c s (it :: w) -> moved s (it :: w) [] (flush (buf c tl s (it :: w))) c tl (flush_at s (it :: w) c) tl.
  Proof. intros Hf Hn. apply free_clear in Hf as [H1 H2]. apply moved_effect; [exact H2|]. apply flush_effect; assumption. Qed.

  Record sinv (h : hist) (c : screen) (o : writes) (log : stream -> list entry) (tl : stream -> str) : Prop := {
    si_tty : forall s, sc_tty c s = rows (log s) ++ tl s;
    si_owner : forall s w, buf c tl s w <> [] -> exists x, OStart x true ∈ h /\ place x = w /\ opened h x;
    si_open : forall s x, OStart x true ∈ h -> opened h x -> cuts (wrote (x_task x) (x_path x) s o) (by_command (x_task x) (x_path x) (log s)) (buf c tl s (place x));
    si_closed : forall s x, OStart x true ∈ h -> ~ opened h x -> lines (wrote (x_task x) (x_path x) s o) (by_command (x_task x) (x_path x) (log s));
    si_fresh : forall s T pa, (forall x, x_task x = T -> x_path x = pa -> OStart x true ∉ h) -> wrote T pa s o = [] /\ by_command T pa (log s) = [];
    si_bab : forall s, by_bab (log s) = own_lines says s h;
    si_where : forall s e, e ∈ log s -> match e_by e with
      | ByCommand T pa => exists x, OStart x true ∈ h /\ x_task x = T /\ x_path x = pa /\ place x = e_in e
      | ByBab ev => ev ∈ h /\ (spot_of (fun e => e ∈ h) ev (e_in e) \/ exists T pa w, ev = OWould T pa w /\ e_in e = []) end }.

  Lemma opened_back ev h x : opened (ev :: h) x -> opened h x.
  Proof.
    intros [H|(i & j & E & H)]; [left|right].
    - intros [ok Hok]. apply H. exists ok. right. exact Hok.
    - exists i, j. split; [exact E|]. intros r Hr. apply (H r). right. exact Hr.
  Qed.

  (** *** A command writes *)
  Lemma sinv_write h p c o log tl z s data : run_of h p -> sinv h c o log tl -> OStart z true ∈ h -> ~ ended h z ->
    exists log' tl', sinv h (put s (place z) data c) (o ++ [(z, s, data)]) log' tl'.
  Proof.
    intros Hr [I1 I2 I3 I4 I5 I6 I7] Hz Hnz. assert (Hoz : opened h z) by (left; exact Hnz).
    assert (Hmine : forall x l, OStart x true ∈ h -> opened h x -> place z = l ++ place x -> x = z) by (intros x l Hx Ho E; symmetry; eapply quiet_running; eassumption).
    assert (Hf : free s (place z) c tl).
    { intros u [l Hu] Hne. destruct (buf c tl s u) eqn:E; [reflexivity|]. exfalso. destruct (I2 s u) as (x & Hx & Ex & Ho); [congruence|].
      apply Hne. rewrite (Hmine x l Hx Ho) in Ex by congruence. congruence. }
    destruct (cuts_total (buf c tl s (place z) ++ data)) as (ls & b & Hcut). destruct (move_data s (place z) data ls b c tl Hf Hcut) as (tl' & M1 & M2).
    set (log' := fun s' => if decide (s' = s) then log s' ++ map (Entry (ByCommand (x_task z) (x_path z)) (place z)) ls else log s').
    assert (Hlog : forall s' T pa, ~ (x_task z = T /\ x_path z = pa) -> by_command T pa (log' s') = by_command T pa (log s')).
    { intros s' T pa Hn. unfold log'. destruct (decide _); [|reflexivity]. rewrite by_command_app, by_command_other by exact Hn. apply app_nil_r. }
    assert (Hw : forall s' T pa, ~ (x_task z = T /\ x_path z = pa) -> wrote T pa s' (o ++ [(z, s, data)]) = wrote T pa s' o).
    { intros s' T pa Hn. rewrite wrote_app, wrote_other by tauto. apply app_nil_r. }
    assert (Hkey : forall x, OStart x true ∈ h -> x <> z -> ~ (x_task z = x_task x /\ x_path z = x_path x)).
    { intros x Hx Hne [E1 E2]. apply Hne. eapply start_same; [exact Hkeyed|exact Hr|exact Hx|exact Hz|congruence|congruence]. }
    exists log', tl'. constructor.
    - intros s'. rewrite (M2 _ I1 s'). unfold log'. destruct (decide (s' = s)); [|reflexivity]. rewrite rows_app, rows_map, <- app_assoc. reflexivity.
    - intros s' u Hu. rewrite M1 in Hu. destruct (decide _) as [[-> ->]|_]; [exists z; auto|]. apply (I2 s' u Hu).
    - intros s' x Hx Ho. destruct (decide ((x_task x, x_path x) = (x_task z, x_path z))) as [Ek|Ek].
      + injection Ek as E1 E2. assert (x = z) as -> by (eapply start_same; eassumption). rewrite M1, wrote_app. unfold log'. destruct (decide (s' = s)) as [->|Hne].
        * rewrite decide_True by auto. rewrite wrote_one, by_command_app, by_command_same. eapply cuts_app; [apply I3; assumption|exact Hcut].
        * rewrite decide_False by tauto. rewrite wrote_other by (intros (_ & _ & E); congruence). rewrite app_nil_r. apply I3; assumption.
      + assert (Hne : x <> z) by (intros ->; congruence). rewrite (Hlog s' _ _ (Hkey x Hx Hne)), (Hw s' _ _ (Hkey x Hx Hne)), M1. rewrite decide_False; [apply I3; assumption|].
        intros [_ E]. apply Hne. apply (Hmine x []); [exact Hx|exact Ho|]. symmetry. exact E.
    - intros s' x Hx Ho. assert (Hne : x <> z) by (intros ->; contradiction). rewrite (Hlog s' _ _ (Hkey x Hx Hne)), (Hw s' _ _ (Hkey x Hx Hne)). apply I4; assumption.
    - intros s' T pa Hn. assert (Hk : ~ (x_task z = T /\ x_path z = pa)) by (intros [E1 E2]; exact (Hn z E1 E2 Hz)). rewrite Hlog, Hw by exact Hk. apply I5. exact Hn.
    - intros s'. rewrite <- I6. unfold log'. destruct (decide _); [|reflexivity]. rewrite by_bab_app, by_bab_command. apply app_nil_r.
    - intros s' e He. unfold log' in He. destruct (decide _); [|apply (I7 s' e He)]. apply elem_of_app in He as [He|He]; [apply (I7 s' e He)|].
      apply elem_of_list_fmap in He as (l & -> & _). exists z. auto.
  Qed.

  (** *** The run goes on, an item of a block does not end *)
  Definition own_at (ev : event) (s : stream) : list str := match own_line ev with Some (s', _) => if decide (s' = s) then says ev else [] | None => [] end.
  Lemma own_lines_cons s ev h : own_lines says s (ev :: h) = own_lines says s h ++ map (pair ev) (own_at ev s).
  Proof.
    unfold own_lines, own_at. simpl. rewrite flat_map_app. simpl. rewrite app_nil_r. f_equal. destruct (own_line ev) as [[s' d]|]; [|reflexivity]. destruct (decide _); reflexivity.
  Qed.
  Definition no_return (ev : event) : Prop := match ev with OReturn _ _ _ _ => False | _ => True end.
  Lemma opened_step h p ev p' x : run_of h p -> run_of (ev :: h) p' -> no_return ev -> OStart x true ∈ h -> opened h x ->
    opened (ev :: h) x \/ exists i ok, ev = OEnd (x_task x) [i] ok /\ x_path x = [i].
  Proof.
    intros Hr Hr' Hev Hx Ho.
    assert (Hd : forall i j, x_path x = [i; j] -> (forall r, OReturn (x_task x) [i] j r ∉ h) -> opened (ev :: h) x).
    { intros i j E H. right. exists i, j. split; [exact E|]. intros r Hin. apply elem_of_cons in Hin as [<-|Hin]; [exact Hev|exact (H r Hin)]. }
    destruct (ended_dec h x) as [He|He]; [destruct Ho as [Ho|(i & j & E & H)]; [contradiction|left; eauto]|].
    destruct (ended_dec (ev :: h) x) as [He'|He']; [|left; left; exact He'].
    destruct He' as [ok Hok]. apply elem_of_cons in Hok as [<-|Hok]; [|exfalso; apply He; exists ok; exact Hok].
    destruct (place_eq k tasks root Hkeyed h p x true Hr Hx) as (_ & _ & _ & [[i E]|(i & j & E)] & _).
    - right. exists i, ok. rewrite E. auto.
    - left. apply (Hd i j E). eapply not_returned; eassumption.
  Qed.
  Lemma sinv_event h p ev p' c o log tl v c' : run_of h p -> run_of (ev :: h) p' -> no_return ev -> tidy (ev :: h) o -> sinv h c o log tl ->
    (has_spot ev = true -> exists v, spot_of (fun e => e ∈ h) ev v) ->
    (forall s u, buf c' tl s u = buf c tl s u) -> (forall s, sc_tty c' s = rows (log s) ++ typed (map (carry v) (own_at ev s)) ++ tl s) ->
    (own_line ev <> None -> spot_of (fun e => e ∈ h) ev v \/ exists T pa w, ev = OWould T pa w /\ v = []) ->
    sinv (ev :: h) c' o (fun s => log s ++ map (Entry (ByBab ev) v) (own_at ev s)) tl.
  Proof.
    intros Hr Hr' Hev Htidy [I1 I2 I3 I4 I5 I6 I7] Hspot Eb Et Hv.
    assert (Hlog : forall s T pa, by_command T pa (log s ++ map (Entry (ByBab ev) v) (own_at ev s)) = by_command T pa (log s)).
    { intros s T pa. rewrite by_command_app, by_command_bab. apply app_nil_r. }
    assert (Hclose : forall x i ok s, OStart x true ∈ h -> opened h x -> ev = OEnd (x_task x) [i] ok -> x_path x = [i] -> buf c tl s (place x) = []).
    { intros x i ok s Hx Ho -> E. eapply cuts_whole; [apply I3; [exact Hx|exact Ho]|]. rewrite E. apply (Htidy x i s); [right; exact Hx|exact E|]. exists ok. rewrite E. left. }
    assert (Hnew : forall x, ev = OStart x true -> forall y, x_task y = x_task x -> x_path y = x_path x -> OStart y true ∉ h).
    { intros x -> y E1 E2. pose proof (run_good k tasks root Hkeyed _ _ Hr') as Hg. apply (act_once k tasks root _ _ _ (x_task x) (x_path x) Hg); [reflexivity|simpl; congruence]. }
    assert (Hnew' : forall x, ev = OStart x true -> ~ ended (ev :: h) x).
    { intros x E [ok Hok]. rewrite E in Hok. apply elem_of_cons in Hok as [Hok|Hok]; [discriminate Hok|]. pose proof (run_good k tasks root Hkeyed _ _ Hr) as Hg.
      destruct (good_in _ _ _ _ Hg Hok) as (h0 & Hs & _ & _ & [_ [(y & E1 & E2 & Hy) _]]). apply (Hnew x E y E1 E2).
      eapply suffix_elem; [|exact Hy]. etransitivity; [apply suffix_cons_self|exact Hs]. }
    constructor.
    - intros s. rewrite Et, rows_app, rows_map, <- app_assoc. reflexivity.
    - intros s w Hw. rewrite Eb in Hw. destruct (I2 s w Hw) as (x & Hx & Ex & Ho). exists x. split; [right; exact Hx|]. split; [exact Ex|].
      destruct (opened_step h p ev p' x Hr Hr' Hev Hx Ho) as [H|(i & ok & E1 & E2)]; [exact H|]. destruct Hw. rewrite <- Ex. eapply Hclose; eassumption.
    - intros s x Hx Ho. rewrite Eb, Hlog. apply elem_of_cons in Hx as [Hx|Hx]; [|apply I3; [exact Hx|eapply opened_back; exact Ho]].
      destruct (I5 s (x_task x) (x_path x)) as [-> ->]; [intros y E1 E2; apply (Hnew x); [congruence|exact E1|exact E2]|].
      assert (E : buf c tl s (place x) = []); [|rewrite E; constructor; apply not_elem_of_nil].
      destruct (buf c tl s (place x)) eqn:E; [reflexivity|]. exfalso. destruct (I2 s (place x)) as (y & Hy & Ey & Hoy); [congruence|].
      destruct (quiet_around k tasks root Hkeyed h p ev p' (place x) y [] Hr Hr') as (i & j & r & E' & _); [rewrite <- Hx; reflexivity|rewrite <- Hx; reflexivity|exact Hy|exact Hoy|symmetry; exact Ey|].
      rewrite E' in Hx. discriminate Hx.
    - intros s x Hx Ho. rewrite Hlog. apply elem_of_cons in Hx as [Hx|Hx]; [destruct Ho; left; apply Hnew'; congruence|].
      assert (Hd : opened h x \/ ~ opened h x).
      { destruct (ended_dec h x) as [He|He]; [|left; left; exact He]. destruct (place_eq k tasks root Hkeyed h p x true Hr Hx) as (_ & _ & _ & [[i E]|(i & j & E)] & _).
        - right. intros [H|(i' & j & E' & _)]; [contradiction|congruence].
        - destruct (returned_dec h (x_task x) i j) as [[r Hret]|Hret]; [right|left; right; eauto]. intros [H|(i' & j' & E' & H)]; [contradiction|]. rewrite E in E'. injection E' as <- <-. exact (H r Hret). }
      destruct Hd as [Hd|Hd]; [|apply I4; assumption]. destruct (opened_step h p ev p' x Hr Hr' Hev Hx Hd) as [H|(i & ok & E1 & E2)]; [contradiction|].
      pose proof (I3 s x Hx Hd) as Hc. rewrite (Hclose x i ok s Hx Hd E1 E2) in Hc. apply cuts_lines in Hc. simpl in Hc. rewrite app_nil_r in Hc. exact Hc.
    - intros s T pa Hn. rewrite Hlog. apply I5. intros x E1 E2 Hin. apply (Hn x E1 E2). right. exact Hin.
    - intros s. rewrite by_bab_app, by_bab_same, own_lines_cons, I6. reflexivity.
    - intros s e He. apply elem_of_app in He as [He|He].
      + specialize (I7 s e He). destruct (e_by e).
        * destruct I7 as (x & Hx & H). exists x. split; [right; exact Hx|exact H].
        * destruct I7 as [H1 [H2|H2]]; (split; [right; exact H1|]); [left; eapply spot_of_mono; [exact H2|apply grows_cons]|right; exact H2].
      + apply elem_of_list_fmap in He as (l & -> & Hl). simpl. split; [left|]. destruct Hv as [H|H]; [|left; eapply spot_of_mono; [exact H|apply grows_cons]|right; exact H].
        unfold own_at in Hl. destruct (own_line ev); [discriminate|inversion Hl].
  Qed.
  Lemma opened_dec h p x : run_of h p -> OStart x true ∈ h -> opened h x \/ ~ opened h x.
  Proof.
    intros Hr Hx. destruct (ended_dec h x) as [He|He]; [|left; left; exact He]. destruct (place_eq k tasks root Hkeyed h p x true Hr Hx) as (_ & _ & _ & [[i E]|(i & j & E)] & _).
    - right. intros [H|(i' & j & E' & _)]; [contradiction|congruence].
    - destruct (returned_dec h (x_task x) i j) as [[r Hret]|Hret]; [right|left; right; eauto]. intros [H|(i' & j' & E' & H)]; [contradiction|]. rewrite E in E'. injection E' as <- <-. exact (H r Hret).
  Qed.
  (** bab's own lines come to a screen where nothing around them is unfinished. *)
  Lemma after_lines h p ev p' c o log tl : run_of h p -> run_of (ev :: h) p' -> no_return ev -> sinv h c o log tl ->
    (has_spot ev = true -> exists v, spot_of (fun e => e ∈ h) ev v) ->
    exists v, (forall s u, buf (after h ev c) tl s u = buf c tl s u) /\ (forall s, sc_tty (after h ev c) s = rows (log s) ++ typed (map (carry v) (own_at ev s)) ++ tl s) /\
      (own_line ev <> None -> spot_of (fun e => e ∈ h) ev v \/ exists T pa w, ev = OWould T pa w /\ v = []).
  Proof.
    intros Hr Hr' Hev HI Hspot. pose proof HI as [I1 I2 _ _ _ _ _]. destruct (own_line ev) as [[s d]|] eqn:Eo.
    - set (v := line_spot h ev).
      assert (Ea : after h ev c = put s v (typed (says ev)) c) by (destruct ev; try discriminate Eo; unfold Screen_Model.after; rewrite Eo; reflexivity).
      assert (Hv : spot_of (fun e => e ∈ h) ev v \/ exists T pa w, ev = OWould T pa w /\ v = []).
      { assert (Hs : forall T s, OClaim T s Fresh ∈ h -> scope_of h T = s) by (intros; eapply scope_of_in; eassumption).
        destruct ev; try discriminate Eo; try (right; eexists _, _, _; split; reflexivity); left; destruct (Hspot eq_refl) as (v' & s' & Hc & _); exists s'; (split; [exact Hc|]); unfold v; simpl; rewrite (Hs _ _ Hc); reflexivity. }
      assert (Hcl : forall s u, u `suffix_of` v -> buf c tl s u = []).
      { intros s' u [l Hu]. destruct (buf c tl s' u) eqn:E; [reflexivity|]. exfalso. destruct (I2 s' u) as (x & Hx & Ex & Ho); [congruence|].
        destruct Hv as [Hv|(T & pa & w & -> & _)].
        - destruct (quiet_around k tasks root Hkeyed h p ev p' v x l Hr Hr') as (i & j & r & -> & _); [destruct ev; try discriminate Eo; try reflexivity; destruct Hv|exact Hv|exact Hx|exact Ho|congruence|exact Hev].
        - eapply (dry_no_start k tasks root Hkeyed _ p' x true T pa w Hr'); [right; exact Hx|left]. }
      destruct (move_data s v (typed (says ev)) (says ev) [] c tl) as (tl' & M1 & M2); [intros u Hu _; apply Hcl; exact Hu|rewrite Hcl by reflexivity; apply cuts_typed; apply Hsays|].
      assert (Eb : forall s' u, buf (after h ev c) tl' s' u = buf c tl s' u).
      { intros s' u. rewrite Ea, M1. destruct (decide _) as [[-> ->]|]; [symmetry; apply Hcl; reflexivity|reflexivity]. }
      assert (Etl : forall s', tl' s' = tl s') by (intros s'; apply (Eb s' [])).
      exists v. split; [|split; [|intros _; exact Hv]].
      + intros s' [|it u]; [reflexivity|]. apply (Eb s' (it :: u)).
      + intros s'. rewrite Ea, (M2 _ I1 s'), Etl. f_equal. f_equal. unfold own_at. rewrite Eo. destruct (decide (s' = s)) as [->|Hne]; [rewrite decide_True by reflexivity|rewrite decide_False by congruence]; reflexivity.
    - exists []. assert (Ea : after h ev c = c) by (unfold Screen_Model.after; destruct ev; try (rewrite Eo; reflexivity); destruct Hev).
      rewrite Ea. split; [reflexivity|]. split; [|congruence]. intros s. rewrite I1. unfold own_at. rewrite Eo. reflexivity.
  Qed.

  (** *** An item of a block ends *)
  Lemma sinv_return h p T i j r p' c o log tl : let ev := OReturn T [i] j r in run_of h p -> run_of (ev :: h) p' -> sinv h c o log tl ->
    (exists v, spot_of (fun e => e ∈ h) ev v) -> exists log', sinv (ev :: h) (after h ev c) o log' tl.
  Proof.
    intros ev Hr Hr' HI (v & s0 & i0 & Ei & Hc & _). injection Ei as <-. pose proof HI as [I1 I2 I3 I4 I5 I6 I7].
    set (w := (T, i, j) :: around s0).
    assert (Hown : forall x l, OStart x true ∈ h -> opened h x -> w = l ++ place x -> l = [] /\ x_task x = T /\ x_path x = [i; j]).
    { intros x l Hx Ho E. destruct (quiet_around k tasks root Hkeyed h p ev p' w x l Hr Hr') as (i' & j' & r' & E1 & E2 & ->); [reflexivity|exists s0, i; auto|exact Hx|exact Ho|exact E|].
      unfold ev in E1. injection E1 as <- <- <- _. auto. }
    assert (Hplace : forall x, OStart x true ∈ h -> x_task x = T -> x_path x = [i; j] -> place x = w).
    { intros x Hx E1 E2. destruct (place_eq k tasks root Hkeyed h p x true Hr Hx) as (s1 & Hc1 & -> & _). rewrite E1 in Hc1. rewrite E1, E2. unfold w. simpl. f_equal. f_equal.
      eapply claim_unique; [exact (run_good k tasks root Hkeyed _ _ Hr)|exact Hc1|exact Hc]. }
    assert (Hfl : forall s, buf c tl s w <> [] -> exists x, OStart x true ∈ h /\ opened h x /\ x_task x = T /\ x_path x = [i; j]).
    { intros s Hne. destruct (I2 s w Hne) as (x & Hx & Ex & Ho). exists x. destruct (Hown x [] Hx Ho) as (_ & E1 & E2); [symmetry; exact Ex|]. auto. }
    assert (Hnl : forall s, nl ∉ buf c tl s w).
    { intros s. destruct (buf c tl s w) eqn:E; [apply not_elem_of_nil|]. rewrite <- E. destruct (I2 s w) as (x & Hx & Ex & Ho); [congruence|]. rewrite <- Ex. eapply cuts_no_nl. apply I3; assumption. }
    assert (Hfree : forall s, free s w c tl).
    { intros s u [l Hu] Hne. destruct (buf c tl s u) eqn:E; [reflexivity|]. exfalso. destruct (I2 s u) as (x & Hx & Ex & Ho); [congruence|].
      destruct (Hown x l Hx Ho) as (-> & _); [congruence|]. apply Hne. rewrite Hu. reflexivity. }
    assert (Ea : after h ev c = flush_at SErr w (flush_at SOut w c)) by (unfold ev; simpl after; rewrite (scope_of_in k tasks root Hkeyed h p T s0 Hr Hc); reflexivity).
    destruct (move_flush SOut (T, i, j) (around s0) c tl (Hfree SOut) (Hnl SOut)) as [A1 A2].
    assert (Hb1 : forall u, buf (flush_at SOut w c) tl SErr u = buf c tl SErr u) by (intros u; unfold w; rewrite A1; rewrite decide_False by (intros [E _]; discriminate E); reflexivity).
    destruct (move_flush SErr (T, i, j) (around s0) (flush_at SOut w c) tl) as [B1 B2]; [intros u Hu Hne; rewrite Hb1; apply Hfree; assumption|change (nl ∉ buf (flush_at SOut w c) tl SErr w); rewrite Hb1; apply Hnl|].
    fold w in A1, A2, B1, B2. rewrite <- Ea in B1, B2.
    assert (Eb : forall s u, buf (after h ev c) tl s u = if decide (u = w) then [] else buf c tl s u).
    { intros s u. rewrite B1. destruct (decide (s = SErr /\ u = w)) as [[-> ->]|Hn]; [rewrite decide_True by reflexivity; reflexivity|]. rewrite A1.
      destruct (decide (s = SOut /\ u = w)) as [[-> ->]|Hn']; [rewrite decide_True by reflexivity; reflexivity|]. rewrite decide_False; [reflexivity|]. intros ->. destruct s; tauto. }
    set (new := fun s => map (Entry (ByCommand T [i; j]) w) (flush (buf c tl s w))).
    assert (Et : forall s, sc_tty (after h ev c) s = rows (log s ++ new s) ++ tl s).
    { intros s. rewrite rows_app. unfold new. rewrite rows_map.
      rewrite (B2 (fun s' => rows (log s') ++ (if decide (s' = SOut) then typed (map (carry w) (flush (buf c tl SOut w))) else []))); [|intros s'; rewrite (A2 _ I1 s'), app_assoc; reflexivity].
      rewrite Hb1, <- !app_assoc. f_equal. destruct s; simpl; reflexivity. }
    assert (Hret : forall x, OStart x true ∈ h -> opened h x -> ~ (x_task x = T /\ x_path x = [i; j]) -> opened (ev :: h) x).
    { intros x Hx [Ho|(i1 & j1 & E1 & Ho)] Hk; [left|right].
      - intros [ok Hok]. apply elem_of_cons in Hok as [Hok|Hok]; [discriminate Hok|]. apply Ho. exists ok. exact Hok.
      - exists i1, j1. split; [exact E1|]. intros r1 Hin. apply elem_of_cons in Hin as [Hin|Hin]; [|exact (Ho r1 Hin)]. unfold ev in Hin. injection Hin as E2 E3 E4 _. apply Hk. rewrite E1, E3, E4. auto. }
    assert (Hended : forall x, OStart x true ∈ h -> x_task x = T -> x_path x = [i; j] -> ~ opened (ev :: h) x).
    { intros x Hx E1 E2 [Ho|(i1 & j1 & E3 & Ho)].
      - apply Ho. pose proof (run_good k tasks root Hkeyed _ _ Hr') as Hg. apply good_tail in Hg as (_ & _ & [_ (_ & _ & Hq & _)]). destruct (Hq x E1 E2 Hx) as [ok Hok].
        exists ok. rewrite E1, E2. right. exact Hok.
      - rewrite E2 in E3. injection E3 as <- <-. apply (Ho r). rewrite E1. left. }
    assert (Hstart : forall x, OStart x true ∈ ev :: h -> OStart x true ∈ h) by (intros x Hx; apply elem_of_cons in Hx as [Hx|Hx]; [discriminate Hx|exact Hx]).
    assert (Hlog : forall s T' pa', ~ (T = T' /\ [i; j] = pa') -> by_command T' pa' (log s ++ new s) = by_command T' pa' (log s)).
    { intros s T' pa' Hn. unfold new. rewrite by_command_app, by_command_other by exact Hn. apply app_nil_r. }
    exists (fun s => log s ++ new s). constructor.
    - exact Et.
    - intros s u Hu. rewrite Eb in Hu. destruct (decide (u = w)) as [->|Hne]; [destruct (Hu eq_refl)|]. destruct (I2 s u Hu) as (x & Hx & Ex & Ho). exists x. split; [right; exact Hx|]. split; [exact Ex|].
      apply Hret; [exact Hx|exact Ho|]. intros [E1 E2]. apply Hne. rewrite <- Ex. apply Hplace; assumption.
    - intros s x Hx Ho. apply Hstart in Hx. pose proof (opened_back _ _ _ Ho) as Ho'.
      assert (Hk : ~ (x_task x = T /\ x_path x = [i; j])) by (intros [E1 E2]; exact (Hended x Hx E1 E2 Ho)). rewrite Hlog by (intros [E1 E2]; apply Hk; auto). rewrite Eb.
      rewrite decide_False; [apply I3; assumption|]. intros E. apply Hk. apply (Hown x [] Hx Ho'). symmetry. exact E.
    - intros s x Hx Ho. apply Hstart in Hx. destruct (decide ((T, [i; j]) = (x_task x, x_path x))) as [Ek|Ek].
      + injection Ek as E1 E2. destruct (opened_dec h p x Hr Hx) as [Hd|Hd].
        * unfold new. rewrite <- E1, <- E2, by_command_app, by_command_same. apply cuts_lines. rewrite E1, E2. rewrite <- (Hplace x Hx (eq_sym E1) (eq_sym E2)). apply I3; assumption.
        * assert (Hno : buf c tl s w = []).
          { destruct (buf c tl s w) eqn:E; [reflexivity|]. exfalso. destruct (Hfl s) as (y & Hy & Hoy & Ey1 & Ey2); [congruence|]. apply Hd.
            assert (x = y) as -> by (eapply start_same; [exact Hkeyed|exact Hr|exact Hx|exact Hy|congruence|congruence]). exact Hoy. }
          unfold new. rewrite Hno. simpl. rewrite app_nil_r. apply I4; assumption.
      + assert (Hk : ~ (x_task x = T /\ x_path x = [i; j])) by (intros [E1 E2]; congruence). rewrite Hlog by (intros [E1 E2]; apply Hk; auto). apply I4; [exact Hx|]. intros Hd. apply Ho. apply Hret; assumption.
    - intros s T' pa' Hn. assert (Hn' : forall x, x_task x = T' -> x_path x = pa' -> OStart x true ∉ h) by (intros x E1 E2 Hin; apply (Hn x E1 E2); right; exact Hin).
      destruct (I5 s T' pa' Hn') as [H1 H2]. split; [exact H1|]. destruct (decide ((T, [i; j]) = (T', pa'))) as [Ek|Ek].
      + injection Ek as <- <-. assert (Hno : buf c tl s w = []).
        { destruct (buf c tl s w) eqn:E; [reflexivity|]. exfalso. destruct (Hfl s) as (y & Hy & Hoy & Ey1 & Ey2); [congruence|]. exact (Hn' y Ey1 Ey2 Hy). }
        unfold new. rewrite Hno. simpl. rewrite app_nil_r. exact H2.
      + rewrite Hlog by (intros [E1 E2]; congruence). exact H2.
    - intros s. unfold new. rewrite by_bab_app, by_bab_command, app_nil_r, I6, own_lines_cons. unfold own_at. simpl. rewrite app_nil_r. reflexivity.
    - intros s e He. apply elem_of_app in He as [He|He].
      + specialize (I7 s e He). destruct (e_by e).
        * destruct I7 as (x & Hx & H). exists x. split; [right; exact Hx|exact H].
        * destruct I7 as [H1 [H2|H2]]; (split; [right; exact H1|]); [left; eapply spot_of_mono; [exact H2|apply grows_cons]|right; exact H2].
      + unfold new in He. apply elem_of_list_fmap in He as (l & -> & Hl). simpl. destruct (Hfl s) as (x & Hx & _ & E1 & E2); [intros E; rewrite E in Hl; inversion Hl|].
        exists x. split; [right; exact Hx|]. split; [exact E1|]. split; [exact E2|]. apply Hplace; assumption.
  Qed.

  (** *** All runs *)
  Lemma tidy_write h o z s data (Hz : OStart z true ∈ h) (Hnz : ~ ended h z) p : run_of h p -> tidy h (o ++ [(z, s, data)]) -> tidy h o.
  Proof.
    intros Hr H x i s' Hx E He. specialize (H x i s' Hx E He). rewrite wrote_app, wrote_other in H; [rewrite app_nil_r in H; exact H|].
    intros (E1 & E2 & _). apply Hnz. assert (z = x) as -> by (eapply start_same; [exact Hkeyed|exact Hr|exact Hz|exact Hx|congruence|congruence]). exact He.
  Qed.
  Lemma tidy_back ev h o : tidy (ev :: h) o -> tidy h o.
  Proof. intros H x i s Hx E [ok He]. apply H; [right; exact Hx|exact E|]. exists ok. right. exact He. Qed.

  Lemma xrun_inv st : xrun a tasks style strip says k root st ->
    run_of st.1.1.1 st.1.1.2 /\ (tidy st.1.1.1 st.2 -> exists log tl, sinv st.1.1.1 st.1.2 st.2 log tl).
  Proof.
    unfold xrun. apply (rtc_ind_r (fun st => run_of st.1.1.1 st.1.1.2 /\ (tidy st.1.1.1 st.2 -> exists log tl, sinv st.1.1.1 st.1.2 st.2 log tl))).
    - simpl. split; [apply rtc_refl|]. intros _. exists (fun _ => []), (fun _ => []). constructor; simpl.
      + reflexivity.
      + intros s [|] H; destruct (H eq_refl).
      + intros s x Hx. inversion Hx.
      + intros s x Hx. inversion Hx.
      + auto.
      + reflexivity.
      + intros s e He. inversion He.
    - intros s1 s2 _ Hst [Hr IH]. destruct Hst as [h p ev p' c o Hs|h p c o x s data Hx Hn Hsh]; simpl in *.
      + assert (Hr' : run_of (ev :: h) p') by (eapply rtc_r; [exact Hr|exact Hs]). split; [exact Hr'|]. intros Ht.
        destruct (IH (tidy_back _ _ _ Ht)) as (log & tl & HI).
        assert (Hspot : has_spot ev = true -> exists v, spot_of (fun e => e ∈ h) ev v).
        { intros He. destruct (inv_run k tasks root Hkeyed h p Hr) as (Hst & _). inversion Hs as [h0 p0 ev0 p0' Hp Hal E1 E2|h0 p0 i E1 E2]; subst; [|discriminate He].
          destruct (spot_step _ _ _ Hp _ _ Hst He) as (v & Hv & _). exists v. exact Hv. }
        assert (Hd : no_return ev \/ exists T i j r, ev = OReturn T [i] j r).
        { destruct ev; try (left; exact I). right. destruct (Hspot eq_refl) as (v & s0 & i & -> & _). eauto. }
        destruct Hd as [Hd|(T & i & j & r & ->)].
        * destruct (after_lines h p ev p' c o log tl Hr Hr' Hd HI Hspot) as (v & H1 & H2 & H3). eexists _, tl. eapply sinv_event; eassumption.
        * destruct (sinv_return h p T i j r p' c o log tl Hr Hr' HI (Hspot eq_refl)) as (log' & H). exists log', tl. exact H.
      + split; [exact Hr|]. intros Ht. assert (Hnx : ~ ended h x) by (intros [ok Hok]; exact (Hn ok Hok)).
        destruct (IH (tidy_write h o x s data Hx Hnx p Hr Ht)) as (log & tl & HI). eapply sinv_write; eassumption.
  Qed.
End Main.
