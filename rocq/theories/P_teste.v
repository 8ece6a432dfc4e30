(** P_teste.v -- the tests of the key codecs. *)
From Verif Require Import Base Spec M_ff M_codec P_codec P_keys M_teste.
Open Scope Z_scope.

Lemma all_loop n (body : nat -> bool -> res bool) (t : nat -> bool) : (forall i s, (i < n)%nat -> body i s = Ok (s && t i)) ->
  exists b, forn n 0 body true = Ok b /\ (b = true <-> forall i, (i < n)%nat -> t i = true).
Proof.
  intros H. destruct (forn_inv (fun k b => b = true <-> forall i, (i < k)%nat -> t i = true) n 0 body true) as (b & E & Hb).
  - split; [intros _ i Hi; lia|reflexivity].
  - intros j s [_ Hj] Hs. exists (s && t j). split; [apply H; exact Hj|]. rewrite andb_true_iff, Hs. split.
    + intros [H1 H2] i Hi. destruct (Nat.eq_dec i j) as [->|]; [exact H2|apply H1; lia].
    + intros H1. split; [intros i Hi; apply H1; lia|apply H1; lia].
  - exists b. split; [exact E|exact Hb].
Qed.

Lemma test_pkey_ok lg h (pk0 h0 : list Z) : falcon_lg lg -> length h = (2 ^ lg)%nat -> Forall canon h -> length pk0 = pkey_len lg -> length h0 = (2 ^ lg)%nat ->
  test_encoding_pkey lg h pk0 h0 = Ok true.
Proof.
  intros Hlg Lh Ch Lp L0. assert (C14 : Forall lt14 h) by (revert Ch; apply Forall_impl; intros x Hx; unfold canon, lt14, Spec.q in *; lia).
  destruct (pk_round lg h pk0 h0 Hlg Lh C14 Lp L0) as (e & E & _ & _ & _ & Dd). unfold test_encoding_pkey. rewrite E. cbn [bind]. rewrite Dd. cbn [bind].
  destruct (all_loop (2 ^ lg) (fun i success => x <- rd h i ;; y <- rd h i ;; Ok (success && ff_eq x y)) (fun _ => true)) as (b & Eb & Hb).
  { intros i s Hi. rewrite (rd_Ok h i 0) by lia. cbn [bind]. unfold ff_eq. rewrite Z.lxor_nilpotent. reflexivity. }
  rewrite Eb. cbn [bind]. rewrite (proj2 Hb) by reflexivity. reflexivity.
Qed.

Lemma test_skey_ok lg f g F (sk0 f0 g0 F0 : list Z) : falcon_lg lg -> length f = (2 ^ lg)%nat -> length g = (2 ^ lg)%nat -> length F = (2 ^ lg)%nat -> length sk0 = skey_len lg ->
  length f0 = (2 ^ lg)%nat -> length g0 = (2 ^ lg)%nat -> length F0 = (2 ^ lg)%nat ->
  exists b, test_encoding_skey lg f g F sk0 f0 g0 F0 = Ok b /\
    (b = true <-> Forall (fits (skey_modulus lg)) f /\ Forall (fits (skey_modulus lg)) g /\ Forall (fits 256) F).
Proof.
  intros Hlg Lf Lg LF Ls L1 L2 L3. destruct (skey_round lg f g F sk0 f0 g0 F0 Hlg Lf Lg LF Ls L1 L2 L3) as (e & E & Le & Be & He & Iff).
  destruct (skey_back lg e f0 g0 F0 sk0 Hlg Le Be L1 L2 L3 Ls) as [_ Bk]. destruct (Bk He) as (f' & g' & F' & Dd & M1 & M2 & M3 & _).
  unfold test_encoding_skey. rewrite E. cbn [bind]. rewrite Dd. cbn [bind].
  destruct (all_loop (2 ^ lg) (fun i success => x <- rd f i ;; y <- rd f' i ;; let success := success && (x =? y) in
    x <- rd g i ;; y <- rd g' i ;; let success := success && (x =? y) in x <- rd F i ;; y <- rd F' i ;; Ok (success && (x =? y)))
    (fun i => (nth i f 0 =? nth i f' 0) && (nth i g 0 =? nth i g' 0) && (nth i F 0 =? nth i F' 0))) as (b & Eb & Hb).
  { intros i s Hi. rewrite (rd_Ok f i 0), (rd_Ok f' i 0) by lia. cbn [bind]. rewrite (rd_Ok g i 0), (rd_Ok g' i 0) by lia. cbn [bind]. rewrite (rd_Ok F i 0), (rd_Ok F' i 0) by lia. cbn [bind].
    rewrite !andb_assoc. reflexivity. }
  exists b. cbv zeta in Eb. rewrite Eb. split; [reflexivity|]. rewrite Hb, <- Iff, Dd. split.
  - intros H. replace f' with f; [replace g' with g; [replace F' with F; [reflexivity|]|]|]; (apply (nth_ext _ _ 0 0); [congruence|]);
      (intros i Hi; assert (X := H i ltac:(lia)); rewrite !andb_true_iff, !Z.eqb_eq in X; apply X).
  - intros H. injection H as -> -> ->. intros i Hi. rewrite !Z.eqb_refl. reflexivity.
Qed.
