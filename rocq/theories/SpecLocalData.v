(** Spec for C109: data of templates without specs. *)
From Verif Require Import Base Types Imports World Template.

(** Nowhere in the data is there a spec of the program, whose package is that of a file. *)
Fixpoint without_specs (v : val) : Prop :=
  match v with
  | VIface _ (Some d) => without_specs d
  | VStruct _ fs => fold_right (fun f P => without_specs (snd f) /\ P) True fs
  | VPtr _ (Some x) => without_specs x
  | VSlice _ l | VArray _ l => fold_right (fun x P => without_specs x /\ P) True l
  | VMap _ es => fold_right (fun e P => (without_specs (fst e) /\ without_specs (snd e)) /\ P) True es
  | VSpec _ _ => False
  | _ => True
  end.
Definition data_without_specs (d : option val) : Prop := forall v, d = Some v -> without_specs v.
(** Templates show nothing of the program for such data. *)
Definition shows_data (texec : World (option val) -> nat -> option val -> res string) : Prop :=
  forall d w w' tm, data_without_specs d -> texec w' tm d = texec w tm d.
