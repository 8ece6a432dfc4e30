(** SpecW.v -- vocabulary for claim C92. *)
From Verif Require Import Base.

(** a run of sign that ends with a signature on which the check v reads outside its buffer *)
Definition signs_outside (r : res (bool * list Z)) (v : list Z -> res bool) : bool := match r with Ok (true, e) => match v e with UB => true | _ => false end | _ => false end.
