(** P_birth.v -- how soon the salts of sign repeat. *)
From Verif Require Import Base Spec M_codec M_sig M_verify M_samp M_float M_exact SpecR M_fft M_ntru M_tree M_util P_signb P_signv P_util.
From Verif Require P_live P_rom P_verifyx SpecG SpecJ.
From Coq Require Import Reals Lra.
Open Scope R_scope.

(** ** lists without repetitions *)
Fixpoint inj (U : list Z) (r : nat) : list (list Z) :=
  match r with O => [[]] | S r' => flat_map (fun t => map (fun x => x :: t) (filter (fun x => if in_dec Z.eq_dec x t then false else true) U)) (inj U r') end.
Lemma inj_in U r l : length l = r -> incl l U -> NoDup l -> In l (inj U r).
Proof.
  revert l. induction r as [|r IH]; intros [|x l] Ll Il Nl; try discriminate; [left; reflexivity|]. cbn [inj]. apply in_flat_map. exists l. apply NoDup_cons_iff in Nl. destruct Nl as [Nx Nl]. split.
  - apply IH; [injection Ll as Ll; exact Ll|intros y Hy; apply Il; right; exact Hy|exact Nl].
  - apply (in_map (fun y => y :: l)), filter_In. split; [apply Il; left; reflexivity|]. destruct (in_dec Z.eq_dec x l); [contradiction|reflexivity].
Qed.
Lemma inj_out U r l : NoDup U -> In l (inj U r) -> length l = r /\ incl l U /\ NoDup l.
Proof.
  intros NU. revert l. induction r as [|r IH]; intros l H; [destruct H as [<-|[]]; split; [reflexivity|split; [intros y []|constructor]]|]. cbn [inj] in H. apply in_flat_map in H. destruct H as (t & Ht & H). apply in_map_iff in H. destruct H as (x & <- & Hx).
  apply filter_In in Hx. destruct Hx as [Hx Nx]. destruct (IH t Ht) as (A & B & C). split; [cbn [length]; rewrite A; reflexivity|]. split; [intros y [<-|Hy]; [exact Hx|exact (B y Hy)]|]. constructor; [|exact C]. destruct (in_dec Z.eq_dec x t); [discriminate|assumption].
Qed.
Lemma filter_out U t : NoDup U -> incl t U -> NoDup t -> (length (filter (fun x => if in_dec Z.eq_dec x t then false else true) U) = length U - length t)%nat.
Proof.
  intros NU It Nt. assert (E : forall V, (length (filter (fun x => if in_dec Z.eq_dec x t then true else false) V) + length (filter (fun x => if in_dec Z.eq_dec x t then false else true) V) = length V)%nat).
  { induction V as [|x V IH]; [reflexivity|]. cbn [filter]. destruct (in_dec Z.eq_dec x t); cbn [length]; lia. }
  assert (Q := E U). assert (length (filter (fun x => if in_dec Z.eq_dec x t then true else false) U) = length t); [|lia].
  apply Nat.le_antisymm; apply NoDup_incl_length.
  - apply NoDup_filter, NU.
  - intros x Hx. apply filter_In in Hx. destruct Hx as [_ Hx]. destruct (in_dec Z.eq_dec x t); [assumption|discriminate].
  - exact Nt.
  - intros x Hx. apply filter_In. split; [exact (It x Hx)|]. destruct (in_dec Z.eq_dec x t); [reflexivity|contradiction].
Qed.
Lemma inj_length U r : NoDup U -> length (inj U (S r)) = (length (inj U r) * (length U - r))%nat.
Proof.
  intros NU. cbn [inj]. assert (H := fun l => inj_out U r l NU). revert H. generalize (inj U r) as Q. induction Q as [|t Q IH]; intros H; [reflexivity|]. cbn [flat_map length]. rewrite app_length, map_length, IH by (intros l Hl; apply H; right; exact Hl).
  destruct (H t (or_introl eq_refl)) as (A & B & C). rewrite (filter_out U t NU B C), A. lia.
Qed.
Lemma one_minus x : 1 - x <= exp (- x).
Proof. destruct (Req_dec x 0) as [->|N]; [rewrite Ropp_0, exp_0; lra|]. assert (H := exp_ineq1 (- x) ltac:(lra)). lra. Qed.
Lemma inj_bound U r : NoDup U -> (0 < length U)%nat -> INR (length (inj U r)) <= exp (- (INR r * (INR r - 1) / (2 * INR (length U)))) * INR (length U) ^ r.
Proof.
  intros NU LU. assert (M0 : 0 < INR (length U)) by (apply lt_0_INR; exact LU). induction r as [|r IH].
  - cbn [inj length INR pow]. unfold Rdiv. rewrite !Rmult_0_l, Ropp_0, exp_0. lra.
  - rewrite inj_length, mult_INR by exact NU. set (M := length U) in *. assert (Q : INR (M - r) <= INR M * exp (- (INR r / INR M))).
    { destruct (Nat.le_gt_cases r M) as [L|L].
      - rewrite minus_INR by exact L. assert (O := one_minus (INR r / INR M)). apply Rle_trans with (INR M * (1 - INR r / INR M)); [right; field; lra|]. apply Rmult_le_compat_l; lra.
      - replace (M - r)%nat with 0%nat by lia. cbn [INR]. apply Rmult_le_pos; [lra|left; apply exp_pos]. }
    eapply Rle_trans; [apply Rmult_le_compat; [apply pos_INR|apply pos_INR|exact IH|exact Q]|]. right.
    replace (- (INR (S r) * (INR (S r) - 1) / (2 * INR M))) with (- (INR r * (INR r - 1) / (2 * INR M)) + - (INR r / INR M)) by (rewrite S_INR; field; lra). rewrite exp_plus. cbn [pow]. ring.
Qed.

(** ** the salt is a function of the value of the random device *)
Lemma salt_of draw xof F (zt : list (D F * D F)) fuel sfuel lg skey msg sig sig' rd : falcon_lg lg -> (sig_bytes lg <= length sig)%nat ->
  sign_run draw xof F zt fuel sfuel lg skey msg sig rd = Ok (true, sig') -> firstn 40 (skipn 1 sig') = map (prng_init draw xof rd) (seq 0 40).
Proof.
  intros Hlg Ls H. unfold sign_run, sign in H. apply bind_Ok in H. destruct H as [[d [[f g] F_]] [_ H]].
  destruct (negb d); [discriminate|]. apply bind_Ok in H. destruct H as [G_ [_ H]]. apply bind_Ok in H. destruct H as [B [_ H]]. apply bind_Ok in H. destruct H as [T [_ H]].
  apply bind_Ok in H. destruct H as [[s p] [H E]]. injection E as ->.
  destruct (sign_layout _ _ _ _ _ _ _ _ _ _ _ _ _ _ Hlg Ls H) as (c & t0 & t1 & s2 & body & _ & _ & _ & _ & _ & _ & _ & _ & ES).
  rewrite ES. cbn [skipn app]. rewrite firstn_app, map_length, seq_length, Nat.sub_diag, firstn_O, app_nil_r.
  rewrite firstn_all2 by (rewrite map_length, seq_length; lia). reflexivity.
Qed.
Lemma NoDup_nth_inv {A} (l : list A) d i j : NoDup l -> (i < length l)%nat -> (j < length l)%nat -> nth i l d = nth j l d -> i = j.
Proof. intros N Hi Hj E. exact (proj1 (NoDup_nth l d) N i j Hi Hj E). Qed.
Lemma upto_nodup n : NoDup (upto n).
Proof. unfold upto. apply FinFun.Injective_map_NoDup; [intros a b H; lia|apply seq_NoDup]. Qed.
Theorem birthday draw xof F (zt : list (D F * D F)) fuel sfuel lg : falcon_lg lg -> forall r (skeys msgs sigs : nat -> list Z), (forall i, (sig_bytes lg <= length (sigs i))%nat) ->
  forall L, NoDup L ->
    Forall (fun rds => length rds = r /\ Forall (fun rd => 0 <= rd < 2 ^ 32)%Z rds /\ exists outs, length outs = r /\
      (forall i, (i < r)%nat -> sign_run draw xof F zt fuel sfuel lg (skeys i) (msgs i) (sigs i) (nth i rds 0%Z) = Ok (true, nth i outs [])) /\ NoDup (map (fun sig => firstn 40 (skipn 1 sig)) outs)) L ->
  INR (length L) <= exp (- (INR r * (INR r - 1) / 2 ^ 33)) * (2 ^ 32) ^ r.
Proof.
  intros Hlg r skeys msgs sigs Ls L NL HL. destruct two32 as [M HM]. assert (IM : INR M = 2 ^ 32) by (rewrite INR_IZR_INZ, HM; symmetry; exact (pow_IZR 2 32)).
  assert (M0 : (0 < M)%nat). { assert (0 < Z.of_nat M)%Z by (rewrite HM; reflexivity). lia. }
  assert (B := inj_bound (upto M) r (upto_nodup M)). rewrite upto_length in B. specialize (B M0). rewrite IM in B. replace (2 * 2 ^ 32) with (2 ^ 33) in B by (simpl; ring).
  eapply Rle_trans; [|exact B]. apply le_INR, NoDup_incl_length; [exact NL|]. intros rds Hr. rewrite Forall_forall in HL. destruct (HL rds Hr) as (Lr & Br & outs & Lo & Hs & No). apply inj_in; [exact Lr| |].
  - intros x Hx. rewrite Forall_forall in Br. apply upto_in. rewrite HM. exact (Br x Hx).
  - apply (NoDup_nth rds 0%Z). intros i j Hi Hj E. rewrite Lr in Hi, Hj. apply (NoDup_nth_inv (map (fun sig => firstn 40 (skipn 1 sig)) outs) [] i j No); [rewrite map_length; lia|rewrite map_length; lia|].
    assert (EI : forall a, (a < r)%nat -> nth a (map (fun sig => firstn 40 (skipn 1 sig)) outs) [] = map (prng_init draw xof (nth a rds 0%Z)) (seq 0 40)).
    { intros a Ha. change (@nil Z) with ((fun sig : list Z => firstn 40 (skipn 1 sig)) []) at 1. rewrite map_nth. exact (salt_of _ _ _ _ _ _ _ _ _ _ _ _ Hlg (Ls a) (Hs a Ha)). }
    rewrite !EI, E by assumption. reflexivity.
Qed.
Theorem birthday_keys draw xof F (zt : list (D F * D F)) fuel sfuel lg pk0 sk0 r L : NoDup L ->
  Forall (fun rds => length rds = r /\ Forall (fun rd => 0 <= rd < 2 ^ 32)%Z rds /\ NoDup (map (keygen_run draw xof F zt fuel sfuel lg pk0 sk0) rds)) L ->
  INR (length L) <= exp (- (INR r * (INR r - 1) / 2 ^ 33)) * (2 ^ 32) ^ r.
Proof.
  intros NL HL. destruct two32 as [M HM]. assert (IM : INR M = 2 ^ 32) by (rewrite INR_IZR_INZ, HM; symmetry; exact (pow_IZR 2 32)).
  assert (M0 : (0 < M)%nat). { assert (0 < Z.of_nat M)%Z by (rewrite HM; reflexivity). lia. }
  assert (B := inj_bound (upto M) r (upto_nodup M)). rewrite upto_length in B. specialize (B M0). rewrite IM in B. replace (2 * 2 ^ 32) with (2 ^ 33) in B by (simpl; ring).
  eapply Rle_trans; [|exact B]. apply le_INR, NoDup_incl_length; [exact NL|]. intros rds Hr. rewrite Forall_forall in HL. destruct (HL rds Hr) as (Lr & Br & No). apply inj_in; [exact Lr| |exact (NoDup_map_inv _ _ No)].
  intros x Hx. rewrite Forall_forall in Br. apply upto_in. rewrite HM. exact (Br x Hx).
Qed.
Lemma third r : 100000 <= INR r -> exp (- (INR r * (INR r - 1) / 2 ^ 33)) <= 1 / 3.
Proof.
  intros H. assert (Y : 115 / 100 <= INR r * (INR r - 1) / 2 ^ 33).
  { apply (Rmult_le_reg_r (2 ^ 33)); [apply pow_lt; lra|]. unfold Rdiv at 2. rewrite Rmult_assoc, Rinv_l, Rmult_1_r by (apply pow_nonzero; lra).
    apply Rle_trans with (100000 * (100000 - 1)); [simpl; lra|]. apply Rmult_le_compat; lra. }
  set (y := INR r * (INR r - 1) / 2 ^ 33) in *. clearbody y. apply Rle_trans with (exp (- (115 / 100))); [destruct (Req_dec y (115 / 100)) as [->|]; [apply Rle_refl|left; apply exp_increasing; lra]|].
  rewrite exp_Ropp. unfold Rdiv at 2. rewrite Rmult_1_l. apply Rinv_le_contravar; [lra|]. replace (115 / 100) with (16 * (115 / 1600)) by lra.
  assert (E16 : exp (16 * (115 / 1600)) = exp (115 / 1600) ^ 16). { rewrite <- Rpower_pow by apply exp_pos. unfold Rpower. rewrite ln_exp. f_equal. simpl. lra. }
  rewrite E16. apply Rle_trans with ((1 + 115 / 1600) ^ 16); [simpl; lra|]. apply pow_incr. assert (Q := exp_ineq1 (115 / 1600) ltac:(lra)). lra.
Qed.
Theorem birthday_third draw xof F (zt : list (D F * D F)) fuel sfuel lg : falcon_lg lg -> forall r (skeys msgs sigs : nat -> list Z), (forall i, (sig_bytes lg <= length (sigs i))%nat) -> 100000 <= INR r ->
  forall L, NoDup L ->
    Forall (fun rds => length rds = r /\ Forall (fun rd => 0 <= rd < 2 ^ 32)%Z rds /\ exists outs, length outs = r /\
      (forall i, (i < r)%nat -> sign_run draw xof F zt fuel sfuel lg (skeys i) (msgs i) (sigs i) (nth i rds 0%Z) = Ok (true, nth i outs [])) /\ NoDup (map (fun sig => firstn 40 (skipn 1 sig)) outs)) L ->
  INR (length L) <= 1 / 3 * (2 ^ 32) ^ r.
Proof.
  intros Hlg r skeys msgs sigs Ls Hr L NL HL. eapply Rle_trans; [exact (birthday draw xof F zt fuel sfuel lg Hlg r skeys msgs sigs Ls L NL HL)|]. apply Rmult_le_compat_r; [apply pow_le, pow_le; lra|]. exact (third r Hr).
Qed.
Lemma birthday_example : exists skey draw xof fuel sfuel out, (forall a, byte_stream (xof a)) /\ (sig_bytes 9 <= length (repeat 0%Z 668))%nat /\
  sign_run draw xof RF exact_table fuel sfuel 9 skey [1; 2; 3]%Z (repeat 0%Z 668) 5 = Ok (true, out) /\ NoDup (map (fun sig : list Z => firstn 40 (skipn 1 sig)) [out]).
Proof.
  destruct P_live.k_run as (skey & rng & fuel & sfuel & sig' & _ & _ & Br & E).
  exists skey, (fun v i => (v + Z.of_nat i)%Z), (fun a => if Nat.eqb (length a) 32 then rng else P_verifyx.const_xof 7 a), fuel, sfuel, sig'.
  split; [intros a; destruct (Nat.eqb (length a) 32); [exact Br|apply P_verifyx.const_xof_ok; lia]|]. split; [rewrite repeat_length; apply Nat.leb_le; reflexivity|]. split; [|constructor; [intros []|constructor]].
  rewrite <- E. unfold sign_run, prng_init, prng_seed. rewrite map_length, seq_length. cbn [Nat.eqb].
  unfold sign. destruct (decode_skey _ _ _ _ _) as [[d [[f g] F_]]| |]; [|reflexivity|reflexivity]. cbn [bind]. destruct (negb d); [reflexivity|].
  destruct (recompute_G _ _ _ _ _ _ _) as [G_| |]; [|reflexivity|reflexivity]. cbn [bind]. destruct (compute_matrix_B _ _ _ _ _ _ _) as [B| |]; [|reflexivity|reflexivity]. cbn [bind].
  destruct (compute_falcon_tree _ _ _ _ _) as [T| |]; [|reflexivity|reflexivity]. cbn [bind]. f_equal.
Qed.
