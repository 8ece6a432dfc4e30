(** SpecM.v -- one pass of signing on a hashed message, as an event.  Exact arithmetic. *)
From Verif Require Import Base Spec SpecR SpecG SpecJ M_float M_exact M_samp M_fft M_ntru M_tree.
Open Scope R_scope.
(** a run of sign that ends with a signature *)
Definition signed (r : res (bool * list Z)) : bool := match r with Ok (true, _) => true | _ => false end.
(** a run of sign that ends with a signature which the check v accepts *)
Definition signs_valid (r : res (bool * list Z)) (v : list Z -> res bool) : bool := match r with Ok (true, e) => match v e with Ok true => true | _ => false end | _ => false end.
(** the vector (s1, s2) that one pass of signing draws for the hashed message c from the bytes w, k attempts for each integer (signing.hpp 55-97) *)
Definition pass_draws (lg : nat) (B T : list Cx) (k : nat) (c w : list Z) (s : list Z * list Z) : bool :=
  match sign_target RF exact_table lg B c with
  | Ok (t0, t1) => draws lg B t0 t1 (ff_sampling RF exact_table k lg 0 t0 t1 T 0 (sigma_min RF lg) (stream w) 0) s
  | _ => false
  end.
