(** SpecK.v -- vocabulary for the distribution of the key polynomials. *)
From Verif Require Import Base Spec SpecG M_float M_ntt M_fft M_ntru.
From Coq Require Import Reals.
Open Scope R_scope.

(** distribution of the sum of k independent integers, each distributed as P on -18 .. 19 *)
Fixpoint convol (P : Z -> R) (k : nat) (v : Z) : R :=
  match k with
  | O => if (v =? 0)%Z then 1 else 0
  | S m => lsum (fun x => P x * convol P m (v - x)%Z) (map (fun j => Z.of_nat j - 18)%Z (seq 0 38))
  end.
(** a run that ends normally with the polynomial v *)
Definition yields (r : res (list Z * nat)) (v : list Z) : bool := match r with Ok (v', _) => if list_eq_dec Z.eq_dec v' v then true else false | _ => false end.
(** a run with undefined behaviour *)
Definition undefined {A} (r : res A) : bool := match r with UB => true | _ => false end.
(** the pairs f, g that one pass of ntru_gen keeps: f invertible, small Gram-Schmidt norm, and a solution of the NTRU equation (ntru_gen.hpp 525-541) *)
Definition kept (F : fops) (ztab : list (D F * D F)) (sfuel lg : nat) (f g : list Z) : bool :=
  match is_poly_invertible lg f, gram_schmidt_norm F ztab lg f g, ntru_solve F ztab sfuel lg f g with
  | Ok true, Ok v, Ok (Some _) => negb (fgt F v (gs_norm_threshold F))
  | _, _, _ => false
  end.
(** the pairs f, g after which ntru_gen starts another pass (ntru_gen.hpp 525-541) *)
Definition rejected (F : fops) (ztab : list (D F * D F)) (sfuel lg : nat) (f g : list Z) : bool :=
  match is_poly_invertible lg f with
  | Ok true =>
    match gram_schmidt_norm F ztab lg f g with
    | Ok v => fgt F v (gs_norm_threshold F) || match ntru_solve F ztab sfuel lg f g with Ok None => true | _ => false end
    | _ => false
    end
  | Ok false => true
  | _ => false
  end.
(** a run of ntru_gen that ends normally with the pair f, g *)
Definition keys (r : res (list Z * list Z * list Z * list Z * nat)) (f g : list Z) : bool :=
  match r with Ok (f', g', _, _, _) => (if list_eq_dec Z.eq_dec f' f then true else false) && (if list_eq_dec Z.eq_dec g' g then true else false) | _ => false end.
