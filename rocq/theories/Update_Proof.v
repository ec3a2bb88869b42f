From Verif Require Import Base Update_Model.
Local Open Scope nat_scope.

Lemma temp_not_cache n : temp_name n -> n <> cache_name.
Proof. intros [mid ->] H. vm_compute in H. discriminate H. Qed.

Definition file_of (ph : phase) : option (str * nat) :=
  match ph with
  | Writing t f _ | Syncing t f | Closing t f | Removing t f | Renaming t f => Some (t, f)
  | _ => None
  end.
Definition links (k : disk) : list (option nat) := dk_dir k !! cache_name :: dk_past k.

Section Inv.
Context (old : option str).

Definition complete (k : disk) (b : str) : Prop := old = Some b \/ b ∈ dk_started k.
Definition phase_ok (k : disk) (d : str) (ph : phase) : Prop :=
  d ∈ dk_started k /\
  match ph with
  | Writing _ f rest => exists c, dk_data k !! f = Some c /\ c ++ rest = d
  | Syncing _ f => dk_data k !! f = Some d
  | Closing _ f | Removing _ f | Renaming _ f => dk_data k !! f = Some d /\ f ∈ dk_synced k
  | Dropping t => temp_name t
  | _ => True
  end /\
  match file_of ph with
  | Some (t, f) => temp_name t /\ t ∈ dk_used k /\ (forall g, dk_dir k !! t = Some g -> g = f) /\ Some f ∉ links k
  | None => True
  end.
Record inv (k : disk) : Prop := Inv {
  inv_links : forall f, Some f ∈ links k -> f ∈ dk_synced k /\ exists b, dk_data k !! f = Some b /\ complete k b;
  inv_procs : forall p d ph, dk_procs k !! p = Some (d, ph) -> phase_ok k d ph;
  inv_apart : forall p q d e ph ph' t t' f f', p <> q -> dk_procs k !! p = Some (d, ph) -> dk_procs k !! q = Some (e, ph') ->
    file_of ph = Some (t, f) -> file_of ph' = Some (t', f') -> t <> t' /\ f <> f' }.

(** A step of a process that leaves the disk as it is. *)
Lemma inv_with_proc k p d ph ph' : inv k -> dk_procs k !! p = Some (d, ph) ->
  (file_of ph' = None \/ file_of ph' = file_of ph) -> phase_ok k d ph' -> inv (with_proc p d ph' k).
Proof.
  intros [Hl Hp Ha] E Hf Hok. constructor.
  - exact Hl.
  - intros q e ph2 Hq. simpl in Hq. apply lookup_insert_Some in Hq as [[<- [= <- <-]] | [Hne Hq]]; [exact Hok|exact (Hp q e ph2 Hq)].
  - intros q r e e' ph1 ph2 t t' f f' Hne Hq Hr F1 F2. simpl in Hq, Hr. apply lookup_insert_Some in Hq as [[<- [= <- <-]] | [N1 Hq]];
      apply lookup_insert_Some in Hr as [[<- [= <- <-]] | [N2 Hr]]; [congruence| | |].
    + destruct Hf as [Hf|Hf]; [congruence|]. rewrite Hf in F1. exact (Ha p r d e' ph ph2 t t' f f' Hne E Hr F1 F2).
    + destruct Hf as [Hf|Hf]; [congruence|]. rewrite Hf in F2. exact (Ha q p e d ph1 ph t t' f f' Hne Hq E F1 F2).
    + exact (Ha q r e e' ph1 ph2 t t' f f' Hne Hq Hr F1 F2).
Qed.

(** Names taken away. *)
Lemma inv_with_dir k dir' : inv k -> (forall n g, dir' !! n = Some g -> dk_dir k !! n = Some g) -> inv (with_dir dir' k).
Proof.
  intros [Hl Hp Ha] Hsub. assert (Hlinks : forall f, Some f ∈ links (with_dir dir' k) -> Some f ∈ links k).
  { intros f Hf. unfold links in *. simpl in Hf. rewrite elem_of_cons in Hf. destruct Hf as [Hf|Hf].
    - apply elem_of_cons. left. symmetry. apply Hsub. symmetry. exact Hf.
    - exact Hf. }
  constructor.
  - intros f Hf. exact (Hl f (Hlinks f Hf)).
  - intros p d ph E. destruct (Hp p d ph E) as (H1 & H2 & H3). split; [exact H1|]. split; [exact H2|].
    destruct (file_of ph) as [[t f]|]; [|exact I]. destruct H3 as (G1 & G2 & G3 & G4). split; [exact G1|]. split; [exact G2|]. split; [|auto].
    intros g Hg. apply G3. apply Hsub. exact Hg.
  - exact Ha.
Qed.
Lemma delete_sub (m : gmap str nat) n : forall j g, delete n m !! j = Some g -> m !! j = Some g.
Proof. intros j g H. apply lookup_delete_Some in H as [_ H]. exact H. Qed.

Lemma step_inv w k k' : sstep w k k' -> inv k -> inv k'.
Proof.
  intros Hs Hi. pose proof Hi as [Hl Hp Ha].
  destruct Hs as [k p d rest E | k p d n rest E Ht | k p d n rest E | k p d E | k p d tmp f E Ht Hu Hd Hf | k p d E
    | k p d tmp f a b c E Hc | k p d tmp f rest E | k p d tmp f E | k p d tmp f E | k p d tmp f E | k p d tmp f E | k p d tmp f E
    | k p d tmp f E | k p d tmp f E | k p d tmp f g E Hg | k p d tmp f E | k p d tmp E | k p d tmp E | k p d ph E | k dir data H1 H2 H3].
  - constructor.
    + intros f Hf. destruct (Hl f Hf) as (G1 & b & G2 & G3). split; [exact G1|]. exists b. split; [exact G2|]. destruct G3 as [G3|G3]; [left; exact G3|right; constructor; exact G3].
    + intros q e ph Hq. simpl in Hq. apply lookup_insert_Some in Hq as [[<- [= <- <-]] | [Hne Hq]].
      * split; [constructor|]. split; exact I.
      * destruct (Hp q e ph Hq) as (G1 & G2). split; [constructor; exact G1|exact G2].
    + intros q r e e' ph1 ph2 t t' f f' Hne Hq Hr F1 F2. simpl in Hq, Hr. apply lookup_insert_Some in Hq as [[<- [= <- <-]] | [N1 Hq]]; [discriminate F1|].
      apply lookup_insert_Some in Hr as [[<- [= <- <-]] | [N2 Hr]]; [discriminate F2|]. exact (Ha q r e e' ph1 ph2 t t' f f' Hne Hq Hr F1 F2).
  - apply (inv_with_proc _ p d (Cleaning (n :: rest))); [apply inv_with_dir; [exact Hi|apply delete_sub]|exact E|left; reflexivity|].
    destruct (Hp p d _ E) as (G1 & _). exact (conj G1 (conj I I)).
  - apply (inv_with_proc _ p d (Cleaning (n :: rest))); [exact Hi|exact E|left; reflexivity|]. exact (conj (proj1 (Hp p d _ E)) (conj I I)).
  - apply (inv_with_proc _ p d (Cleaning [])); [exact Hi|exact E|left; reflexivity|]. exact (conj (proj1 (Hp p d _ E)) (conj I I)).
  - pose proof (temp_not_cache tmp Ht) as Htc.
    assert (Hdir : <[tmp:=f]> (dk_dir k) !! cache_name = dk_dir k !! cache_name) by (apply lookup_insert_ne; exact Htc).
    set (k' := Disk _ _ _ _ _ _ _).
    assert (Hlk : forall g, Some g ∈ links k' -> Some g ∈ links k).
    { intros g Hg. unfold links, k' in Hg. simpl in Hg. rewrite Hdir in Hg. apply elem_of_cons in Hg as [Hg|Hg]; [apply elem_of_cons; left; exact Hg|exact Hg]. }
    assert (Hnf : Some f ∉ links k). { intros Hin. destruct (Hl f Hin) as (_ & b & Hb & _). congruence. }
    assert (Hother : forall q e ph t g, q <> p -> dk_procs k !! q = Some (e, ph) -> file_of ph = Some (t, g) -> t <> tmp /\ g <> f).
    { intros q e ph t g Hq Eq Fq. destruct (Hp q e ph Eq) as (G1 & G2 & G3). rewrite Fq in G3. destruct G3 as (_ & G4 & _). split; [congruence|]. intros ->.
      destruct ph; simpl in Fq; try discriminate Fq; injection Fq as -> ->; simpl in G2;
        [destruct G2 as (c & G2 & _)| |destruct G2 as [G2 _]..]; congruence. }
    constructor.
    + intros g Hg. apply Hlk in Hg. destruct (Hl g Hg) as (G1 & b & G2 & G3). split; [exact G1|]. exists b. split; [|exact G3]. simpl. rewrite lookup_insert_ne by congruence. exact G2.
    + intros q e ph Hq. unfold k' in Hq. simpl in Hq. apply lookup_insert_Some in Hq as [[<- [= <- <-]] | [Hne Hq]].
      * split; [exact (proj1 (Hp p d _ E))|]. split; [exists []; simpl; rewrite lookup_insert; auto|]. simpl. split; [exact Ht|]. split; [set_solver|].
        split; [intros g; rewrite lookup_insert; congruence|]. intros Hin. apply Hlk in Hin. contradiction.
      * destruct (Hp q e ph Hq) as (G1 & G2 & G3). split; [exact G1|]. destruct (file_of ph) as [[t g]|] eqn:Fq.
        -- destruct (Hother q e ph t g ltac:(congruence) Hq Fq) as [O1 O2]. split.
           ++ destruct ph; simpl in Fq; try discriminate Fq; injection Fq as -> ->; simpl in *; rewrite ?lookup_insert_ne by congruence; exact G2.
           ++ destruct G3 as (A1 & A2 & A3 & A4). split; [exact A1|]. split; [unfold k'; simpl; set_solver|]. split; [|intros Hin; apply A4, Hlk, Hin].
              intros h Hh. unfold k' in Hh. simpl in Hh. rewrite lookup_insert_ne in Hh by congruence. exact (A3 h Hh).
        -- split; [|exact I]. destruct ph; simpl in Fq; try discriminate Fq; exact G2.
    + intros q r e e' ph1 ph2 t t' g g' Hne Hq Hr F1 F2. unfold k' in Hq, Hr. simpl in Hq, Hr. apply lookup_insert_Some in Hq as [[<- [= <- <-]] | [N1 Hq]];
        apply lookup_insert_Some in Hr as [[<- [= <- <-]] | [N2 Hr]]; [congruence| | |exact (Ha q r e e' ph1 ph2 t t' g g' Hne Hq Hr F1 F2)].
      * injection F1 as <- <-. destruct (Hother r e' ph2 t' g' ltac:(congruence) Hr F2). split; congruence.
      * injection F2 as <- <-. destruct (Hother q e ph1 t g ltac:(congruence) Hq F1). split; congruence.
  - apply (inv_with_proc _ p d Creating); [exact Hi|exact E|left; reflexivity|]. exact (conj (proj1 (Hp p d _ E)) (conj I I)).
  - destruct (Hp p d _ E) as (G1 & (c' & G2 & G3) & (G4 & G5 & G6 & G7)). simpl in *. rewrite Hc in G2. injection G2 as <-.
    constructor.
    + intros g Hg. change (Some g ∈ links k) in Hg. destruct (Hl g Hg) as (A1 & x & A2 & A3). split; [exact A1|]. exists x. split; [|exact A3]. simpl.
      rewrite lookup_insert_ne; [exact A2|]. intros ->. contradiction.
    + intros q e ph Hq. simpl in Hq. apply lookup_insert_Some in Hq as [[<- [= <- <-]] | [Hne Hq]].
      * split; [exact G1|]. split; [exists (c ++ a); simpl; rewrite lookup_insert, <- app_assoc; auto|]. simpl. auto.
      * destruct (Hp q e ph Hq) as (B1 & B2 & B3). split; [exact B1|]. split; [|exact B3]. destruct (file_of ph) as [[t g]|] eqn:Fq.
        -- destruct (Ha p q d e _ ph tmp t f g Hne E Hq eq_refl Fq) as [_ Hfg].
           destruct ph; simpl in Fq; try discriminate Fq; injection Fq as -> ->; simpl in *; rewrite ?lookup_insert_ne by congruence; exact B2.
        -- destruct ph; simpl in Fq; try discriminate Fq; exact B2.
    + intros q r e e' ph1 ph2 t t' g g' Hne Hq Hr F1 F2. simpl in Hq, Hr. apply lookup_insert_Some in Hq as [[<- [= <- <-]] | [N1 Hq]];
        apply lookup_insert_Some in Hr as [[<- [= <- <-]] | [N2 Hr]]; [congruence| | |exact (Ha q r e e' ph1 ph2 t t' g g' Hne Hq Hr F1 F2)].
      * exact (Ha p r d e' _ ph2 t t' g g' Hne E Hr F1 F2).
      * exact (Ha q p e d ph1 _ t t' g g' Hne Hq E F1 F2).
  - destruct (Hp p d _ E) as (G1 & G2 & G3). apply (inv_with_proc _ p d (Writing tmp f rest)); [exact Hi|exact E|left; reflexivity|]. simpl in G3. exact (conj G1 (conj (proj1 G3) I)).
  - destruct (Hp p d _ E) as (G1 & (c & G2 & G2') & G3). rewrite app_nil_r in G2'. subst c. apply (inv_with_proc _ p d (Writing tmp f [])); [exact Hi|exact E|right; reflexivity|].
    exact (conj G1 (conj G2 G3)).
  - destruct (Hp p d _ E) as (G1 & G2 & G3). simpl in G2, G3. constructor.
    + intros g Hg. change (Some g ∈ links k) in Hg. destruct (Hl g Hg) as (A1 & x & A2 & A3). split; [simpl; set_solver|]. exists x. auto.
    + intros q e ph Hq. simpl in Hq. apply lookup_insert_Some in Hq as [[<- [= <- <-]] | [Hne Hq]].
      * split; [exact G1|]. split; [simpl; split; [exact G2|set_solver]|exact G3].
      * destruct (Hp q e ph Hq) as (B1 & B2 & B3). split; [exact B1|]. split; [|exact B3].
        destruct ph; simpl in *; try exact B2; (split; [exact (proj1 B2)|]; set_solver).
    + intros q r e e' ph1 ph2 t t' g g' Hne Hq Hr F1 F2. simpl in Hq, Hr. apply lookup_insert_Some in Hq as [[<- [= <- <-]] | [N1 Hq]];
        apply lookup_insert_Some in Hr as [[<- [= <- <-]] | [N2 Hr]]; [congruence| | |exact (Ha q r e e' ph1 ph2 t t' g g' Hne Hq Hr F1 F2)].
      * exact (Ha p r d e' _ ph2 t t' g g' Hne E Hr F1 F2).
      * exact (Ha q p e d ph1 _ t t' g g' Hne Hq E F1 F2).
  - destruct (Hp p d _ E) as (G1 & G2 & G3). apply (inv_with_proc _ p d (Syncing tmp f)); [exact Hi|exact E|left; reflexivity|]. exact (conj G1 (conj (proj1 G3) I)).
  - destruct (Hp p d _ E) as (G1 & G2 & G3). apply (inv_with_proc _ p d (Closing tmp f)); [exact Hi|exact E|right; destruct w; reflexivity|].
    destruct w; exact (conj G1 (conj G2 G3)).
  - destruct (Hp p d _ E) as (G1 & G2 & G3). apply (inv_with_proc _ p d (Closing tmp f)); [exact Hi|exact E|left; reflexivity|]. exact (conj G1 (conj (proj1 G3) I)).
  - assert (Hi' : inv (with_dir (delete cache_name (dk_dir k)) k)) by (apply inv_with_dir; [exact Hi|apply delete_sub]).
    apply (inv_with_proc _ p d (Removing tmp f)); [exact Hi'|exact E|right; reflexivity|]. exact (inv_procs _ Hi' p d _ E).
  - apply (inv_with_proc _ p d (Removing tmp f)); [exact Hi|exact E|right; reflexivity|]. exact (Hp p d _ E).
  - destruct (Hp p d _ E) as (G1 & (G2 & G2') & (G4 & G5 & G6 & G7)). pose proof (G6 g Hg) as ->. pose proof (temp_not_cache _ G4) as Htc.
    set (k' := with_proc _ _ _ _). assert (Hlk : forall h, Some h ∈ links k' -> h = f \/ Some h ∈ links k).
    { intros h Hh. unfold k', links in Hh. simpl in Hh. rewrite lookup_insert in Hh. rewrite elem_of_cons in Hh. destruct Hh as [[= ->] | Hh]; [left; reflexivity|].
      right. exact Hh. }
    constructor.
    + intros h Hh. apply Hlk in Hh as [-> | Hh]; [|exact (Hl h Hh)]. split; [exact G2'|]. exists d. split; [exact G2|right; exact G1].
    + intros q e ph Hq. unfold k' in Hq. simpl in Hq. apply lookup_insert_Some in Hq as [[<- [= <- <-]] | [Hne Hq]]; [exact (conj G1 (conj I I))|].
      destruct (Hp q e ph Hq) as (B1 & B2 & B3). split; [exact B1|]. split; [exact B2|]. destruct (file_of ph) as [[t h]|] eqn:Fq; [|exact I].
      destruct B3 as (C1 & C2 & C3 & C4). destruct (Ha p q d e _ ph tmp t f h Hne E Hq eq_refl Fq) as [Htt Hff].
      split; [exact C1|]. split; [exact C2|]. split.
      * intros x Hx. unfold k' in Hx. simpl in Hx. rewrite lookup_insert_ne in Hx by (apply not_eq_sym, temp_not_cache; exact C1). apply lookup_delete_Some in Hx as [_ Hx]. exact (C3 x Hx).
      * intros Hin. apply Hlk in Hin as [Hin|Hin]; [congruence|contradiction].
    + intros q r e e' ph1 ph2 t t' h h' Hne Hq Hr F1 F2. unfold k' in Hq, Hr. simpl in Hq, Hr. apply lookup_insert_Some in Hq as [[<- [= <- <-]] | [N1 Hq]]; [discriminate F1|].
      apply lookup_insert_Some in Hr as [[<- [= <- <-]] | [N2 Hr]]; [discriminate F2|]. exact (Ha q r e e' ph1 ph2 t t' h h' Hne Hq Hr F1 F2).
  - destruct (Hp p d _ E) as (G1 & G2 & G3). apply (inv_with_proc _ p d (Renaming tmp f)); [exact Hi|exact E|left; reflexivity|]. exact (conj G1 (conj (proj1 G3) I)).
  - apply (inv_with_proc _ p d (Dropping tmp)); [apply inv_with_dir; [exact Hi|apply delete_sub]|exact E|left; reflexivity|]. exact (conj (proj1 (Hp p d _ E)) (conj I I)).
  - apply (inv_with_proc _ p d (Dropping tmp)); [exact Hi|exact E|left; reflexivity|]. exact (conj (proj1 (Hp p d _ E)) (conj I I)).
  - apply (inv_with_proc _ p d ph); [exact Hi|exact E|left; reflexivity|]. exact (conj (proj1 (Hp p d _ E)) (conj I I)).
  - constructor.
    + intros f Hf. assert (Hin : Some f ∈ links k).
      { unfold links in *. simpl in Hf. rewrite elem_of_cons in Hf. destruct Hf as [Hf|Hf]; [rewrite Hf; exact H1|exact Hf]. }
      destruct (Hl f Hin) as (G1 & b & G2 & G3). split; [exact G1|]. exists b. simpl. rewrite (H3 f G1). auto.
    + intros q e ph Hq. simpl in Hq. rewrite lookup_fmap in Hq. apply fmap_Some in Hq as ([e' ph'] & Hq & [= -> ->]). exact (conj (proj1 (Hp q e' ph' Hq)) (conj I I)).
    + intros q r e e' ph1 ph2 t t' h h' Hne Hq Hr F1 F2. simpl in Hq. rewrite lookup_fmap in Hq. apply fmap_Some in Hq as ([e'' ph'] & Hq & [= -> ->]). discriminate F1.
Qed.

(** The content of a file that had the name of the cache does not change. *)
Lemma step_constant w k k' f : sstep w k k' -> inv k -> Some f ∈ links k -> Some f ∈ links k' /\ dk_data k' !! f = dk_data k !! f.
Proof.
  intros Hs [Hl Hp Ha] Hf. destruct (Hl f Hf) as (Hsy & b & Hb & _).
  destruct Hs as [k p d rest E | k p d n rest E Ht | k p d n rest E | k p d E | k p d tmp g E Ht Hu Hd Hg | k p d E
    | k p d tmp g a b' c E Hc | k p d tmp g rest E | k p d tmp g E | k p d tmp g E | k p d tmp g E | k p d tmp g E | k p d tmp g E
    | k p d tmp g E | k p d tmp g E | k p d tmp g h E Hg | k p d tmp g E | k p d tmp E | k p d tmp E | k p d ph E | k dir data H1 H2 H3];
    try (split; [exact Hf|reflexivity]); try (split; [unfold links in *; simpl; constructor; exact Hf|reflexivity]).
  - split; [unfold links in *; simpl; constructor; exact Hf|]. simpl. apply lookup_insert_ne. congruence.
  - destruct (Hp p d _ E) as (_ & _ & (_ & _ & _ & G)). split; [exact Hf|]. simpl. apply lookup_insert_ne. intros ->. contradiction.
  - split; [unfold links in *; simpl; constructor; exact Hf|]. simpl. apply H3. exact Hsy.
Qed.
Lemma steps_inv w k k' : rtc (sstep w) k k' -> inv k -> inv k'.
Proof. induction 1 as [|k1 k2 k3 H _ IH]; [auto|]. intros Hi. apply IH. exact (step_inv _ _ _ H Hi). Qed.
Lemma steps_constant w k k' f : rtc (sstep w) k k' -> inv k -> Some f ∈ links k -> dk_data k' !! f = dk_data k !! f.
Proof.
  induction 1 as [|k1 k2 k3 H _ IH]; [auto|]. intros Hi Hf. destruct (step_constant _ _ _ _ H Hi Hf) as [H1 H2]. rewrite IH; [exact H2|exact (step_inv _ _ _ H Hi)|exact H1].
Qed.
Lemma inv_read k : inv k -> forall b, read_cache k = Some b -> complete k b.
Proof.
  intros Hi b. unfold read_cache. destruct (dk_dir k !! cache_name) as [f|] eqn:E; [|discriminate]. intros Hb.
  destruct (inv_links _ Hi f) as (_ & b' & Hb' & Hc); [unfold links; rewrite E; constructor|]. congruence.
Qed.
Lemma inv_present k f : inv k -> dk_dir k !! cache_name = Some f -> exists b, read_cache k = Some b.
Proof.
  intros Hi E. destruct (inv_links _ Hi f) as (_ & b & Hb & _); [unfold links; rewrite E; constructor|]. exists b. unfold read_cache. rewrite E. exact Hb.
Qed.
End Inv.

(** Off Windows the name of the cache never disappears. *)
Lemma step_kept k k' : sstep false k k' -> (forall p d t f, dk_procs k !! p <> Some (d, Removing t f)) -> None ∉ links k ->
  (forall p d ph, dk_procs k !! p = Some (d, ph) -> match ph with Dropping t => temp_name t | _ => match file_of ph with Some (t, _) => temp_name t | None => True end end) ->
  None ∉ links k' /\ (forall p d t f, dk_procs k' !! p <> Some (d, Removing t f)).
Proof.
  intros Hs Hr Hn Ht.
  assert (Hproc : forall p d ph m, m = dk_procs k -> (forall t f, ph <> Removing t f) -> forall q e t f, <[p := (d, ph)]> m !! q <> Some (e, Removing t f)).
  { intros p d ph m -> Hph q e t f Hq. apply lookup_insert_Some in Hq as [[_ [= <- Hq]] | [_ Hq]]; [exact (Hph t f Hq)|exact (Hr q e t f Hq)]. }
  destruct Hs as [k p d rest E | k p d n rest E Hn' | k p d n rest E | k p d E | k p d tmp g E Ht' Hu Hd Hg | k p d E
    | k p d tmp g a b' c E Hc | k p d tmp g rest E | k p d tmp g E | k p d tmp g E | k p d tmp g E | k p d tmp g E | k p d tmp g E
    | k p d tmp g E | k p d tmp g E | k p d tmp g h E Hg | k p d tmp g E | k p d tmp E | k p d tmp E | k p d ph E | k dir data H1 H2 H3];
    try (exfalso; exact (Hr _ _ _ _ E)); try (split; [exact Hn|]; simpl; apply Hproc; [reflexivity|discriminate]).
  - split; [|simpl; apply Hproc; [reflexivity|discriminate]]. unfold links in *. simpl. rewrite lookup_delete_ne by (apply temp_not_cache; exact Hn').
    intros H. apply elem_of_cons in H as [H|H]; [apply Hn; apply elem_of_cons; left; exact H|contradiction].
  - split; [|simpl; apply Hproc; [reflexivity|discriminate]]. unfold links in *. simpl. rewrite lookup_insert_ne by (apply temp_not_cache; exact Ht').
    intros H. apply elem_of_cons in H as [H|H]; [apply Hn; apply elem_of_cons; left; exact H|contradiction].
  - split; [|simpl; apply Hproc; [reflexivity|discriminate]]. unfold links in *. simpl. rewrite lookup_insert.
    intros H. apply elem_of_cons in H as [H|H]; [discriminate H|contradiction].
  - pose proof (Ht _ _ _ E) as Htm. simpl in Htm. split; [|simpl; apply Hproc; [reflexivity|discriminate]]. unfold links in *. simpl. rewrite lookup_delete_ne by (apply temp_not_cache; exact Htm).
    intros H. apply elem_of_cons in H as [H|H]; [apply Hn; apply elem_of_cons; left; exact H|contradiction].
  - split.
    + unfold links in *. simpl. intros H. apply elem_of_cons in H as [H|H]; [rewrite <- H in H1|]; contradiction.
    + intros p d t f Hq. simpl in Hq. rewrite lookup_fmap in Hq. apply fmap_Some in Hq as ([e ph] & _ & [= _ Hq]).
Qed.
