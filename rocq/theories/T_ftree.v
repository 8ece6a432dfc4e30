(** T_ftree.v -- claim C68: compute_falcon_tree in IEEE 754 binary64. *)
From Coq Require Import Lra.
From Verif Require Import Base Spec SpecR SpecF M_float M_exact M_ieee M_table M_samp M_fft M_tree P_ieee P_near P_key P_fkey P_ftree64.
Open Scope R_scope.

(** C68: for every key that satisfies the NTRU equation and the bound the key-generation test establishes (C66), with |F|^2 and |G|^2 at most 4096^2, the basis matrix and the tree are
    computed in binary64 with no undefined operation; every cell of the tree is finite and within 1/400 of the cell of the tree computed exactly; the leaves, which are the standard
    deviations given to the sampler, are real and between 1.27 and 1.79. *)
Theorem C68_tree : forall lg f g F_ G_ T TX, falcon_lg lg ->
  length f = (2 ^ lg)%nat -> length g = (2 ^ lg)%nat -> length F_ = (2 ^ lg)%nat -> length G_ = (2 ^ lg)%nat -> ntru (2 ^ lg) f g F_ G_ -> gs_norm lg f g <= 168224122 / 10000 ->
  (sqnorm F_ <= 16777216)%Z -> (sqnorm G_ <= 16777216)%Z -> ((lg + 1) * 2 ^ lg <= length T)%nat -> ((lg + 1) * 2 ^ lg <= length TX)%nat ->
  exists B T' BX TX', compute_matrix_B F64 (source_table F64) lg f g F_ G_ = Ok B /\ compute_falcon_tree F64 (source_table F64) lg B T = Ok T' /\ length T' = length T /\
    compute_matrix_B RF exact_table lg f g F_ G_ = Ok BX /\ compute_falcon_tree RF exact_table lg BX TX = Ok TX' /\ length TX' = length TX /\
    forall k, (k < (lg + 1) * 2 ^ lg)%nat -> let x := nth k T' (c0 F64) in
      fin64 (fst x) /\ fin64 (snd x) /\ Cmod (Csub (val64 (fst x), val64 (snd x)) (nth k TX' Czero)) <= 1 / 400 /\
      ((lg * 2 ^ lg <= k)%nat -> val64 (snd x) = 0 /\ 127 / 100 <= val64 (fst x) <= 179 / 100).
Proof. exact key_cells64. Qed.
Print Assumptions C68_tree.
Example C68_sat : falcon_lg 9 /\ length kf = 512%nat /\ length kg = 512%nat /\ length kF = 512%nat /\ length kG = 512%nat /\ ntru 512 kf kg kF kG /\
  gs_norm 9 kf kg <= 168224122 / 10000 /\ (sqnorm kF <= 16777216)%Z /\ (sqnorm kG <= 16777216)%Z.
Proof.
  split; [left; reflexivity|]. destruct k_length as (L1 & L2 & L3 & L4). repeat (split; [assumption|]). split; [exact k_ntru|]. split; [assert (G := k_gs); lra|].
  destruct k_sq as (_ & _ & S3 & S4). split; eapply Z.le_trans; try eassumption; discriminate.
Qed.
