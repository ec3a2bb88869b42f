(** Two runs of the same tasks in which variables of the file, or of the environment of bab, have
    other values. *)
From Verif Require Import Base Types_Model Interp_Model Interp_Spec Run_Model Run_Spec Secret_Spec.

(** The [vars] of the file as they are written: equal but for the names in [V], which come with all that
    is made from them. Those in [U] may be missing in one of them. *)
Record revalued (V U : gset str) (gv gv' : gmap str str) : Prop := {
  rv_others : forall x, x ∉ V -> gv !! x = gv' !! x;
  rv_closed : forall x s, gv !! x = Some s -> uses V s -> x ∈ V;
  rv_same : forall x, x ∉ U -> is_Some (gv !! x) <-> is_Some (gv' !! x) }.

(** The same thing is done, as far as anyone outside of bab can tell, apart from the environment that
    a command inherits. *)
Inductive same_deed (environ environ' : list str) : event -> event -> Prop :=
| sd_same ev : (forall x b, ev <> OStart x b) -> same_deed environ environ' ev ev
| sd_start T pa sc c e d show stdin cx out b :
    same_deed environ environ' (OStart (Proc T pa sc c (environ ++ e) d show stdin cx out) b) (OStart (Proc T pa sc c (environ' ++ e) d show stdin cx out) b)
| sd_alloc T pa m m' l : same_deed environ environ' (OAlloc T pa m l) (OAlloc T pa m' l)
| sd_read T pa m m' l : same_deed environ environ' (ORead T pa l m) (ORead T pa l m')
| sd_write T pa l x v v' : same_deed environ environ' (OWrite T pa l x v) (OWrite T pa l x v')
| sd_order m m' o : same_deed environ environ' (OOrder m o) (OOrder m' o).
