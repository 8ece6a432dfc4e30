(** SpecS.v -- vocabulary of the claims about the calls ff_sampling makes to the integer sampler. *)
From Verif Require Import Base Spec SpecR M_float M_exact M_samp.
Open Scope R_scope.

(** a call: centre, standard deviation, result *)
Definition call : Type := (R * R * Z)%type.
Definition centre (c : call) : R := fst (fst c).
Definition stddev (c : call) : R := snd (fst c).
Definition outcome (c : call) : Z := snd c.

(** the calls of cs, one after the other, read the generator from pos to pos' *)
Fixpoint sampler_calls (fuel : nat) (smin : R) (g : rng_t) (cs : list call) (pos pos' : nat) : Prop :=
  match cs with
  | [] => pos' = pos
  | c :: r => exists p, samplerz RF fuel (centre c) (stddev c) smin g pos = Ok (outcome c, p) /\ sampler_calls fuel smin g r p pos'
  end.

(** sum of (z - mu)^2 / (2 sigma'^2): the density of the outcomes of cs is proportional to exp of minus this *)
Definition energy (cs : list call) : R :=
  fold_right (fun c e => (IZR (outcome c) - centre c) * (IZR (outcome c) - centre c) / (2 * (stddev c * stddev c)) + e) 0 cs.
