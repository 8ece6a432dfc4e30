(** SpecJ.v -- vocabulary for the joint distribution of the samples of ff_sampling.  Exact arithmetic. *)
From Verif Require Import Base Spec SpecR M_float M_exact M_fft M_ntt M_ntru M_tree.
Open Scope R_scope.

Definition Cx_eq_dec (x y : Cx) : {x = y} + {x <> y}.
Proof. decide equality; apply Req_EM_T. Defined.
(** z is the FFT form of the integer polynomial a *)
Definition is_fft (lg : nat) (z : list Cx) (a : list Z) : bool := if list_eq_dec Cx_eq_dec z (values lg (map Cz a)) then true else false.
(** a run of ff_sampling that ends with the integer polynomials of a, in FFT form *)
Definition samples (lg : nat) (r : res (list Cx * list Cx * nat)) (a : list Z * list Z) : bool :=
  match r with Ok (z0, z1, _) => is_fft lg z0 (fst a) && is_fft lg z1 (snd a) | _ => false end.
(** a run that ends normally *)
Definition finishes {A} (r : res A) : bool := match r with Ok _ => true | _ => false end.
(** product of a list *)
Definition Rprod (l : list R) : R := fold_right Rmult 1 l.
(** G is the sum of the values of f over all x of the set dom *)
Definition total {X} (dom : X -> Prop) (f : X -> R) (G : R) : Prop := is_lub (fun x => exists l, NoDup l /\ Forall dom l /\ x = fold_right (fun a r => f a + r) 0 l) G.
(** a run of ff_sampling from whose result signing computes the vector s = (s1, s2), in FFT form (signing.hpp 84-97) *)
Definition draws (lg : nat) (B t0 t1 : list Cx) (r : res (list Cx * list Cx * nat)) (s : list Z * list Z) : bool :=
  match r with
  | Ok (z0, z1, _) => match sign_vector RF lg B t0 t1 z0 z1 with Ok (v0, v1) => is_fft lg v0 (fst s) && is_fft lg v1 (snd s) | _ => false end
  | _ => false
  end.
(** the vectors (s1, s2) with s1 + s2 h = c modulo q *)
Definition coset (lg : nat) (c h : list Z) (s : list Z * list Z) : Prop :=
  length (fst s) = (2 ^ lg)%nat /\ length (snd s) = (2 ^ lg)%nat /\ modq (fst s) = s1_residues lg c (snd s) h.
(** the keys for which the distribution of signatures is known: a solution of the NTRU equation that passes the tests of key generation (for N = 512 the
    bound on the Gram-Schmidt norm is the one that the literal sigma_min stands for), and whose F, G are not huge *)
Definition sound_key (lg : nat) (f g F G : list Z) : Prop :=
  length f = (2 ^ lg)%nat /\ length g = (2 ^ lg)%nat /\ length F = (2 ^ lg)%nat /\ length G = (2 ^ lg)%nat /\ ntru (2 ^ lg) f g F G /\
  gs_norm lg f g <= 117 / 100 * (117 / 100) * 12289 /\
  (lg = 10%nat \/ sigma_min RF lg * sigma_min RF lg * gs_norm lg f g <= sigma_value RF lg * sigma_value RF lg) /\
  Forall (fun x => Z.abs x <= 27000)%Z F /\ Forall (fun x => Z.abs x <= 27000)%Z G /\
  Forall smallq f /\ Forall smallq g /\ is_poly_invertible lg f = Ok true.
(** e is a signature whose body is the encoding of s2 *)
Definition body_is (lg : nat) (s2 : list Z) (e : list Z) : bool :=
  if list_eq_dec Bool.bool_dec (body_bits lg e) (encs s2 ++ repeat false (Z.to_nat (body_len lg - tot s2))) then true else false.
(** a run of sign that ends with a signature of body s2 *)
Definition signs (lg : nat) (r : res (bool * list Z)) (s2 : list Z) : bool := match r with Ok (true, e) => body_is lg s2 e | _ => false end.
(** the vectors that signing accepts: short, and with a compressed form that fits *)
Definition signable (lg : nat) (c h : list Z) (s : list Z * list Z) : Prop :=
  coset lg c h s /\ (sqnorm (fst s) + sqnorm (snd s) <= beta2 lg)%Z /\ (tot (snd s) < body_len lg)%Z.
(** a run of ff_sampling from whose result signing computes a vector that passes its test on the norm (signing.hpp 84-101) *)
Definition short_draw (lg : nat) (B t0 t1 : list Cx) (r : res (list Cx * list Cx * nat)) : bool :=
  match r with
  | Ok (z0, z1, _) =>
    match sign_vector RF lg B t0 t1 z0 z1 with
    | Ok (v0, v1) => match sqrd_norm_c RF lg v0, sqrd_norm_c RF lg v1 with Ok n0, Ok n1 => if Rle_dec (n0 + n1) (IZR (beta2 lg)) then true else false | _, _ => false end
    | _ => false
    end
  | _ => false
  end.
(** the vectors of the coset that are too long for a signature *)
Definition too_long (lg : nat) (c h : list Z) (s : list Z * list Z) : Prop := coset lg c h s /\ (beta2 lg < sqnorm (fst s) + sqnorm (snd s))%Z.
