(** What scaling a product down gives away (C96). *)
From Verif Require Import Base MModulus MUtils MNtt MRns MRq MBfv MTrace SpecTrace2 SpecTrace3.

(** The signs of the corrections agree, polynomial by polynomial and
    coefficient by coefficient. *)
Definition down_signs (s : RqScaler) (cs cs' : list Poly) : Prop :=
  Forall2 (fun p q => forall u u', change_repr Release p PowerBasis = Ok u -> change_repr Release q PowerBasis = Ok u' -> same_signs s u u') cs cs'.
