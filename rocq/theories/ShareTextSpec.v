(** * Specification: writing an event that may share, or contain itself, as JSON.

    json.Marshal walks the fields in the order of their names, the elements of arrays in
    their order, whatever they share.  It ends in one of three ways. *)
From Verif Require Export ShareSpec Json.
Local Open Scope Z_scope.

(** A field map JSON can hold: no NaN or infinity, nested at most 10000 deep. *)
Definition jsonable_tree (t : tree) : Prop := ¬ has_nonfinite t ∧ tdepth t ≤ 10000.
(** 1. Everything reached is written: [x] shows [t], and [t] can be written. *)
Definition writes (bs : list box) (x : item) (t : tree) : Prop := unfolds bs x t ∧ jsonable_tree t.
(** 2. The walk reaches something that cannot be written, everything before it having
    been written; it stops there. *)
Inductive refused (bs : list box) : item → Prop :=
| rf_number t : has_nonfinite t → match t with TArr _ | TObj _ => False | _ => True end → refused bs (IPlain t)
| rf_deep x t : unfolds bs x t → ¬ has_nonfinite t → 10000 < tdepth t → refused bs x
| rf_arr n l1 x l2 : bs !! n = Some (BxArr (Some (l1 ++ x :: l2))) →
    Forall (λ y, ∃ t, writes bs y t) l1 → refused bs x → refused bs (IArr n)
| rf_obj n m1 k x m2 : bs !! n = Some (BxObj (m1 ++ (k, x) :: m2)) →
    Forall (λ y, ∃ t, writes bs y.2 t) m1 → refused bs x → refused bs (IObj n).
(** 3. Neither: it goes round in circles until the stack overflows. *)
Definition endless (bs : list box) (x : item) : Prop := (∀ t, ¬ writes bs x t) ∧ ¬ refused bs x.

(** The same for the fields of an event. *)
Definition writable_as (G : graph) (m : gomap tree) : Prop := shows G m ∧ jsonable_tree (TObj m).
Definition unwritable (G : graph) : Prop := match g_root G with None => False | Some n => refused (g_boxes G) (IObj n) end.
Definition circular (G : graph) : Prop := match g_root G with None => False | Some n => endless (g_boxes G) (IObj n) end.
