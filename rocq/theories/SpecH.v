(** SpecH.v -- outcomes of hash_to_point as events. *)
From Verif Require Import Base.
(** a run that ends normally with the polynomial c *)
Definition hashes_to (r : res (list Z)) (c : list Z) : bool := match r with Ok c' => if list_eq_dec Z.eq_dec c' c then true else false | _ => false end.
(** a run that ends normally *)
Definition done (r : res (list Z)) : bool := match r with Ok _ => true | _ => false end.
(** verification that ends with "accepted" *)
Definition accepted (r : res bool) : bool := match r with Ok true => true | _ => false end.
