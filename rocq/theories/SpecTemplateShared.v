(** Specification: which memory qualified template data shares with the data it was made from. *)
From Verif Require Import Base GoPath Types SpecTypes Imports Conv World Template SpecTemplate TemplateMemory SpecTemplateMemory.

(** New memory: a variable (or array), or a map. *)
Inductive holder := NewCell (n : nat) | NewTable (n : nat).
Section Shared.
Variable implements : gty -> string -> bool.
Variable unsafe : bool.
Variable parent_of : spec -> res (option Package).
(** the names of packages; the memory before and after *)
Variable nm : string -> string.
Variables m m' : hmem.
Definition renames (v : hval) : Prop := exists t, stands_for unsafe m v t /\ moved implements unsafe parent_of nm t.
Definition renames_nothing (v : hval) : Prop := exists t, stands_for unsafe m v t /\ ~ moved implements unsafe parent_of nm t.
(** [part v w A]: [w] is in the result in the place of [v].  Either nothing in [v] gets another
    name, and then it is [v] itself, with the memory it refers to.  Or it is made anew; [A] is the
    new memory that it refers to. *)
Inductive part : hval -> hval -> list holder -> Prop :=
| part_kept v : renames_nothing v -> part v v []
| part_made v v' A : renames v -> made v v' A -> part v (hbox (htypeof v) v') A
with made : hval -> hval -> list holder -> Prop :=
| made_leaf l l' : made (HLeaf l) (HLeaf l') []
| made_shown t l l' : made (HIface t (Some (HLeaf l))) (HLeaf l') []
| made_reference t l e n l' : nth_error (hcells m') n = Some (HLeaf l') -> List.length (hcells m) <= n ->
    made (HIface t (Some (HLeaf l))) (HPtr e (Some (n, []))) [NewCell n]
| made_held t d d' A : made d d' A -> made (HIface t (Some d)) d' A
| made_struct t fs fs' A : fields_made fs fs' A -> made (HStruct t fs) (HStruct t fs') A
| made_pointer e e' p n x x' A : load m p = Some x -> nth_error (hcells m') n = Some x' -> List.length (hcells m) <= n ->
    made x x' A -> made (HPtr e (Some p)) (HPtr e' (Some (n, []))) (NewCell n :: A)
| made_slice t s p off len n l l' A : slice_elems m p off len = Some l -> nth_error (hcells m') n = Some (HArray s l') ->
    List.length (hcells m) <= n -> all_made l l' A -> made (HSlice t p off len) (HSlice t (n, []) 0 len) (NewCell n :: A)
| made_array t l l' A : all_made l l' A -> made (HArray t l) (HArray t l') A
| made_map t k n es es' A : nth_error (htables m) k = Some es -> nth_error (htables m') n = Some es' ->
    List.length (htables m) <= n -> entries_made es es' A -> made (HMap t (Some k)) (HMap t (Some n)) (NewTable n :: A)
with all_made : list hval -> list hval -> list holder -> Prop :=
| am_nil : all_made [] [] []
| am_cons x w A l l' B : part x w A -> all_made l l' B -> all_made (x :: l) (w :: l') (A ++ B)
with fields_made : list (bool * hval) -> list (bool * hval) -> list holder -> Prop :=
| fm_nil : fields_made [] [] []
| fm_cons e x w A l l' B : part x w A -> fields_made l l' B -> fields_made ((e, x) :: l) ((e, w) :: l') (A ++ B)
(** Keys may have become equal: then one of them is there, with the value of one of them. *)
with entries_made : list (hval * hval) -> list (hval * hval) -> list holder -> Prop :=
| em_nil es : entries_made es [] []
| em_cons es k k' y x x' z A B C l' : In (k, y) es -> In (z, x) es -> part k k' A -> part x x' B -> entries_made es l' C ->
    entries_made es ((k', x') :: l') (A ++ B ++ C).
End Shared.
