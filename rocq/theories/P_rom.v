(** P_rom.v -- requests for hashes and signatures, with one table of the hash function, can be answered without the secret key. *)
From Verif Require Import Base Spec SpecT SpecU SpecV SpecR SpecS SpecG SpecJ SpecH SpecM M_ff M_codec M_ntt M_sig M_verify M_float M_exact M_samp M_fft M_ntru M_tree P_prob P_gsum P_jprob P_jgauss P_jkey P_jcoset P_kubx P_widek P_sim P_fitm P_fits P_vers P_simsig P_loopk P_adapt.
From Verif Require P_genlaw P_key P_live.
From Coq Require Import Lra.
Open Scope R_scope.

Lemma mean_avg n : forall f, mean n f = avg n f.
Proof.
  induction n as [|n IH]; intros f; [reflexivity|]. cbn [mean avg]. apply (f_equal (fun z => z / 256)).
  assert (E : forall (F1 F2 : nat -> R), (forall b, F1 b = F2 b) -> forall b, sum_to b F1 = rsum b F2) by (intros F1 F2 E; induction b as [|b IHb]; [reflexivity|]; cbn [sum_to rsum]; rewrite IHb, E; reflexivity).
  apply E. intros b. apply IH.
Qed.
Lemma avg_tri n f g e : (forall s, length s = n -> bytes s -> Rabs (f s - g s) <= e s) -> Rabs (avg n f - avg n g) <= avg n e.
Proof.
  intros H. apply Rabs_le. assert (U1 : avg n f <= avg n (fun s => g s + e s)) by (apply avg_mono; intros s Ls Bs; assert (Q := Rle_trans _ _ _ (Rle_abs _) (H s Ls Bs)); lra).
  assert (U2 : avg n g <= avg n (fun s => f s + e s)) by (apply avg_mono; intros s Ls Bs; assert (Q := H s Ls Bs); rewrite Rabs_minus_sym in Q; assert (Q' := Rle_trans _ _ _ (Rle_abs _) Q); lra).
  rewrite avg_plus in U1, U2. lra.
Qed.
Lemma avg_in01 n f : (forall s, 0 <= f s <= 1) -> 0 <= avg n f <= 1.
Proof. intros H. split; [rewrite <- (avg_const n 0)|rewrite <- (avg_const n 1)]; apply avg_mono; intros s _ _; apply H. Qed.
Lemma ind01 b : 0 <= P_prob.ind b <= 1.
Proof. destruct b; cbn; lra. Qed.
Lemma prob01 n P : 0 <= prob n P <= 1.
Proof. rewrite prob_avg. apply avg_in01. intros s. apply ind01. Qed.

Lemma mean_ext n f g : (forall s, f s = g s) -> mean n f = mean n g.
Proof. intros H. rewrite !mean_avg. apply avg_ext. intros s _ _. apply H. Qed.
Lemma mean_in01 n f : (forall s, 0 <= f s <= 1) -> 0 <= mean n f <= 1.
Proof. rewrite mean_avg. apply avg_in01. Qed.
(** ** the probability of one byte string *)
Lemma avg_one n : forall a, avg n (fun s => P_prob.ind (if list_eq_dec Z.eq_dec s a then true else false)) <= / 256 ^ n.
Proof.
  induction n as [|n IH]; intros a.
  - cbn [avg pow]. rewrite Rinv_1. apply ind01.
  - cbn [avg]. destruct a as [|x a].
    + rewrite (rsum_ext 256 _ (fun _ => 0)). 2:{ intros b _. rewrite (avg_ext n _ (fun _ => 0)); [apply avg_const|]. intros s _ _. destruct (list_eq_dec Z.eq_dec _ _) as [E|]; [discriminate E|reflexivity]. }
      assert (Z0 : forall j, rsum j (fun _ => 0) = 0) by (induction j as [|j IHj]; [reflexivity|]; cbn [rsum]; rewrite IHj; ring). rewrite Z0. unfold Rdiv. rewrite Rmult_0_l. left. apply Rinv_0_lt_compat, pow_lt. lra.
    + apply Rle_trans with (/ 256 ^ n / 256); [|right; cbn [pow]; rewrite Rinv_mult; unfold Rdiv; ring]. unfold Rdiv. apply Rmult_le_compat_r; [lra|].
      assert (P0 : 0 < / 256 ^ n) by (apply Rinv_0_lt_compat, pow_lt; lra).
      assert (B : forall j, rsum j (fun b => avg n (fun s => P_prob.ind (if list_eq_dec Z.eq_dec (Z.of_nat b :: s) (x :: a) then true else false))) <= if (x <? Z.of_nat j)%Z then / 256 ^ n else 0).
      { induction j as [|j IHj]; cbn [rsum]; [destruct (x <? Z.of_nat 0)%Z; lra|].
        destruct (Z.eq_dec x (Z.of_nat j)) as [E|E].
        - rewrite (proj2 (Z.ltb_ge x (Z.of_nat j))) in IHj by lia. rewrite (proj2 (Z.ltb_lt x (Z.of_nat (S j)))) by lia.
          enough (avg n (fun s => P_prob.ind (if list_eq_dec Z.eq_dec (Z.of_nat j :: s) (x :: a) then true else false)) <= / 256 ^ n) by lra.
          eapply Rle_trans; [|exact (IH a)]. apply avg_mono. intros s _ _. destruct (list_eq_dec Z.eq_dec (Z.of_nat j :: s) (x :: a)) as [E'|]; [|apply ind01]. injection E' as _ E'. destruct (list_eq_dec Z.eq_dec s a); [lra|contradiction].
        - rewrite (avg_ext n _ (fun _ => 0)). 2:{ intros s _ _. destruct (list_eq_dec Z.eq_dec _ _) as [E'|]; [injection E' as E' _; congruence|reflexivity]. } rewrite avg_const.
          destruct (Z.ltb_spec x (Z.of_nat j)); destruct (Z.ltb_spec x (Z.of_nat (S j))); lra || lia. }
      eapply Rle_trans; [apply B|]. destruct (x <? Z.of_nat 256)%Z; lra.
Qed.

(** ** tables *)
Definition found (t : list (list Z * list Z)) (a : list Z) : bool := match lookup t a with Some _ => true | None => false end.
Lemma found_rare (t : list (list Z * list Z)) msg : avg 40 (fun sa => P_prob.ind (found t (sa ++ msg))) <= INR (length t) * / 256 ^ 40.
Proof.
  induction t as [|[b v] t IH].
  - cbn [length INR]. rewrite (avg_ext 40 _ (fun _ => 0)), avg_const by reflexivity. lra.
  - change (length ((b, v) :: t)) with (S (length t)). rewrite S_INR, Rmult_plus_distr_r, Rmult_1_l. eapply Rle_trans; [|apply Rplus_le_compat; [exact IH|exact (avg_one 40 (firstn 40 b))]]. rewrite <- avg_plus. apply avg_mono.
    intros s Ls _. unfold found. cbn [lookup]. destruct (list_eq_dec Z.eq_dec (s ++ msg) b) as [E|].
    + destruct (list_eq_dec Z.eq_dec s (firstn 40 b)) as [|C]; [|contradict C; rewrite <- E, firstn_app, Ls, Nat.sub_diag, firstn_O, app_nil_r, firstn_all2 by lia; reflexivity].
      assert (Q := ind01 (match lookup t (s ++ msg) with Some _ => true | None => false end)). cbn [P_prob.ind] in *. lra.
    + assert (Q := ind01 (if list_eq_dec Z.eq_dec s (firstn 40 b) then true else false)). lra.
Qed.
Definition hashb (lg k : nat) (u : list Z) : res (list Z) := hash_to_point k (fun _ => stream u) lg [] [] (repeat 0%Z (2 ^ lg)).
Lemma hash_table k xof lg salt msg u : xof (salt ++ msg) = stream u -> hash_to_point k xof lg salt msg (repeat 0%Z (2 ^ lg)) = hashb lg k u.
Proof. intros E. unfold hashb, hash_to_point. rewrite E. reflexivity. Qed.
Definition twin (lg k : nat) (e e' : list Z * list Z) : Prop := fst e = fst e' /\ hashb lg k (snd e) = hashb lg k (snd e').
Lemma twin_lookup lg k t t' a : Forall2 (twin lg k) t t' -> match lookup t a, lookup t' a with Some u, Some u' => hashb lg k u = hashb lg k u' | None, None => True | _, _ => False end.
Proof.
  induction 1 as [|[b u] [b' u'] t t' [E1 E2] F IH]; [exact I|]. cbn [fst snd lookup] in *. subst b'. destruct (list_eq_dec Z.eq_dec a b); [exact E2|exact IH].
Qed.
Lemma twin_known lg k t t' a u : Forall2 (twin lg k) t t' -> hashb lg k (known t a u) = hashb lg k (known t' a u).
Proof. intros F. assert (X := twin_lookup lg k t t' a F). unfold known. destruct (lookup t a), (lookup t' a); [exact X|contradiction|contradiction|reflexivity]. Qed.
Lemma sign_table m k xof xof' lg skey msg sig sa w : length sa = 40%nat ->
  hash_to_point k xof lg sa msg (repeat 0%Z (2 ^ lg)) = hash_to_point k xof' lg sa msg (repeat 0%Z (2 ^ lg)) ->
  sign RF exact_table m k xof lg skey msg sig (stream (sa ++ w)) = sign RF exact_table m k xof' lg skey msg sig (stream (sa ++ w)).
Proof.
  intros La E. unfold sign. destruct (decode_skey _ _ _ _ _) as [[d [[f g] F_]]| |]; [|reflexivity|reflexivity]. cbn [bind]. destruct (negb d); [reflexivity|].
  destruct (recompute_G _ _ _ _ _ _ _) as [G_| |]; [|reflexivity|reflexivity]. cbn [bind]. destruct (compute_matrix_B _ _ _ _ _ _ _) as [B| |]; [|reflexivity|reflexivity]. cbn [bind].
  destruct (compute_falcon_tree _ _ _ _ _) as [T| |]; [|reflexivity|reflexivity]. cbn [bind]. f_equal. unfold sign_bt, rng_read. cbv beta iota.
  assert (ES : map (fun i => stream (sa ++ w) (0 + i)%nat) (seq 0 40) = sa) by (apply P_live.map_nth_seq; [exact La|]; intros i Hi; cbn [Nat.add]; unfold stream; apply app_nth1; lia).
  rewrite ES, E. reflexivity.
Qed.
(** bytes that hash to a given point *)
Fixpoint unhash (c : list Z) : list Z := match c with [] => [] | x :: c' => (x / 256)%Z :: (x mod 256)%Z :: unhash c' end.
Lemma unhash_matches m : forall c, Forall canon c -> (length c <= m)%nat -> P_hash.matches c (P_hash.lwords (unhash c) m) = true.
Proof.
  induction m as [|m IH]; intros [|x c] Hc Lc; cbn [length] in Lc; try lia; try reflexivity.
  apply Forall_cons_iff in Hc. destruct Hc as [Hx Hc]. cbn [unhash]. rewrite P_hash.lwords_cons. cbn [P_hash.matches]. rewrite <- (Z.div_mod x 256) by lia. unfold canon, q in Hx.
  rewrite (proj2 (Z.ltb_lt x 61445)) by lia. rewrite Z.mod_small by (unfold q; lia). rewrite Z.eqb_refl. cbn [andb]. apply IH; [exact Hc|lia].
Qed.
Lemma unhash_bytes c : Forall canon c -> bytes (unhash c).
Proof.
  induction 1 as [|x c Hx Hc IH]; [constructor|]. unfold canon, q in Hx. cbn [unhash]. apply Forall_cons; [|apply Forall_cons; [|exact IH]].
  - split; [apply Z.div_pos; lia|apply Z.div_lt_upper_bound; lia].
  - apply Z.mod_pos_bound. lia.
Qed.
Lemma hashb_unhash lg k c : falcon_lg lg -> (512 <= k)%nat -> length c = (2 ^ lg)%nat -> Forall canon c -> hashb lg k (unhash c) = Ok c.
Proof.
  intros Hlg Hk Lc Cc. unfold hashb. rewrite P_verify.hash_ok; [|apply P_hash.stream_bytes, unhash_bytes, Cc|apply repeat_length]. rewrite P_hash.accepted_lwords.
  assert (LK : (length c <= 68 * k)%nat) by (rewrite Lc; destruct Hlg as [-> | ->]; cbn [Nat.pow Nat.mul Nat.add]; lia).
  assert (M := unhash_matches (68 * k) c Cc LK). apply P_hash.matches_ok in M. destruct M as [M1 M2]. rewrite Lc in M1, M2. rewrite (proj2 (Nat.leb_le _ _)) by exact M1. f_equal. exact M2.
Qed.
Lemma hashb_facts lg k u c : bytes u -> hashb lg k u = Ok c -> length c = (2 ^ lg)%nat /\ Forall canon c.
Proof. intros Bu E. unfold hashb in E. apply P_verifyx.hash_hashed in E; [|apply P_hash.stream_bytes; exact Bu|apply repeat_length]. exact (P_verifyx.hashed_facts _ _ _ E). Qed.
Lemma point_facts lg h s : length (point_of lg h s) = (2 ^ lg)%nat /\ Forall canon (point_of lg h s).
Proof.
  unfold point_of. split; [apply tab_length|]. apply Forall_forall. intros x Hx. unfold tab in Hx. apply in_map_iff in Hx. destruct Hx as (i & <- & _). unfold canon. apply Z.mod_pos_bound. reflexivity.
Qed.
Lemma slack_pos lg k : 0 <= slack lg k.
Proof.
  unfold slack. assert (0 <= (981 / 1000) ^ 2 ^ lg) by (apply pow_le; lra). assert (0 <= unfit lg) by (unfold unfit; destruct (Nat.eqb lg 9); lra).
  assert (0 <= INR (2 * 2 ^ lg) * (2 / 2 ^ 34 + (11 / 12) ^ k)). { apply Rmult_le_pos; [apply pos_INR|]. assert (0 <= (11 / 12) ^ k) by (apply pow_le; lra). assert (0 < 2 / 2 ^ 34) by (apply Rdiv_lt_0_compat; [lra|apply pow_lt; lra]). lra. }
  assert (0 < 16 ^ 2 ^ lg / 8 ^ (68 * k)) by (apply Rdiv_lt_0_compat; apply pow_lt; lra). lra.
Qed.

(** ** the game *)
Section Game.
Variables (lg : nat) (Hlg : falcon_lg lg) (h : list Z) (WT : R) (WT0 : 0 < WT) (TWT : total (pairN lg) (fun s => wts lg s) WT).
Variables (A : view -> request) (D : view -> bool) (k : nat).
Lemma ideal_sig r : forall p seen, {x | ideal lg h WT k A D r p seen x /\ 0 <= x <= 1}.
Proof.
  induction r as [|r IH]; intros p seen; cbn [ideal].
  - exists (if D seen then 1 else 0). split; [reflexivity|]. destruct (D seen); lra.
  - destruct (A seen) as [salt msg|msg sig].
    + destruct (lookup p (salt ++ msg)) as [c|]; [apply IH|]. set (y := fun c => proj1_sig (IH ((salt ++ msg, c) :: p) ((c, []) :: seen))).
      assert (Y : forall c, ideal lg h WT k A D r ((salt ++ msg, c) :: p) ((c, []) :: seen) (y c) /\ 0 <= y c <= 1) by (intros c; apply (proj2_sig (IH _ _))).
      eexists. split; [exists y; split; [intros c; apply Y|reflexivity]|]. apply mean_in01. intros u. destruct (hash_to_point _ _ _ _ _ _); [apply Y|lra|lra].
    + set (y := fun sa s => proj1_sig (IH ((sa ++ msg, point_of lg h s) :: p) ((point_of lg h s, bytes_of lg sa sig s) :: seen))).
      assert (Y : forall sa s, ideal lg h WT k A D r ((sa ++ msg, point_of lg h s) :: p) ((point_of lg h s, bytes_of lg sa sig s) :: seen) (y sa s) /\ 0 <= y sa s <= 1) by (intros sa s; apply (proj2_sig (IH _ _))).
      assert (T : forall sa, {z | total (pairN lg) (fun s => wts lg s / WT * y sa s) z /\ 0 <= z <= 1}).
      { intros sa. apply (total_sig (pairN lg) _ (fun s => wts lg s / WT) 1); [|exact (TW1 lg WT WT0 TWT)]. intros s. assert (P := w1_pos lg WT WT0 s). destruct (Y sa s) as [_ [Y0 Y1]].
        split; [apply Rmult_le_pos; lra|]. rewrite <- (Rmult_1_r (wts lg s / WT)) at 2. apply Rmult_le_compat_l; lra. }
      exists (mean 40 (fun sa => proj1_sig (T sa))). split.
      * exists (fun sa => proj1_sig (T sa)). split; [|reflexivity]. intros sa. exists (y sa). split; [intros s; apply Y|apply (proj2_sig (T sa))].
      * apply mean_in01. intros sa. apply (proj2_sig (T sa)).
Qed.
Lemma ideal_unique r : forall p seen x x', ideal lg h WT k A D r p seen x -> ideal lg h WT k A D r p seen x' -> x = x'.
Proof.
  induction r as [|r IH]; intros p seen x x' H H'; cbn [ideal] in H, H'; [congruence|]. destruct (A seen) as [salt msg|msg sig].
  - destruct (lookup p (salt ++ msg)) as [c|]; [exact (IH _ _ _ _ H H')|]. destruct H as (y & Hy & ->). destruct H' as (y' & Hy' & ->). apply mean_ext. intros u. destruct (hash_to_point _ _ _ _ _ _) as [c| |]; [|reflexivity|reflexivity].
    exact (IH _ _ _ _ (Hy c) (Hy' c)).
  - destruct H as (z & Hz & ->). destruct H' as (z' & Hz' & ->). apply mean_ext. intros sa. destruct (Hz sa) as (y & Hy & Ty). destruct (Hz' sa) as (y' & Hy' & Ty').
    apply (total_unique _ _ _ _ Ty). apply (total_ext_fun _ (fun s => wts lg s / WT * y' s)); [|exact Ty']. intros s. f_equal. symmetry. exact (IH _ _ _ _ (Hy s) (Hy' s)).
Qed.
Lemma ideal_01 r p seen x : ideal lg h WT k A D r p seen x -> 0 <= x <= 1.
Proof. intros H. destruct (ideal_sig r p seen) as (x' & H' & B). rewrite (ideal_unique r p seen x x' H H'). exact B. Qed.

Variables (f g F_ G_ h0 : list Z).
Hypotheses (HS : sound_key lg f g F_ G_) (Lh : length h0 = (2 ^ lg)%nat) (HK : compute_public_key lg f g h0 = Ok h).
Variable skey : list Z.
Hypothesis HD : decode_skey lg skey (repeat 0%Z (2 ^ lg)) (repeat 0%Z (2 ^ lg)) (repeat 0%Z (2 ^ lg)) = Ok (true, (f, g, F_)).
Variables (m n : nat).
Hypotheses (Hk : (512 <= k)%nat) (Hm : (1 <= m)%nat) (Hn : (36 * k * 2 ^ lg * m <= n)%nat).
Hypothesis HA : forall seen, match A seen with ask_hash _ _ => True | ask_sign _ sig => bytes sig /\ (sig_bytes lg + 2 <= length sig)%nat end.
Notation dd := (slack lg k).
Notation L := (136 * k + n)%nat.
Notation LL := (40 + (136 * k + n))%nat.
Notation gm := (game lg skey k m n A D).
Notation z0 := (repeat 0%Z (2 ^ lg)).

(** one signature, for a given salt and a continuation that may look at fresh bytes *)
Lemma step_near (salt msg sig : list Z) M (cont : list Z -> list Z -> list Z -> bool) (y : list Z * list Z -> R) x E : length salt = 40%nat -> bytes salt -> bytes sig -> (sig_bytes lg + 2 <= length sig)%nat ->
  (forall s, Rabs (prob M (fun v => cont v (point_of lg h s) (bytes_of lg salt sig s)) - y s) <= E) -> total (pairN lg) (fun s => wts lg s / WT * y s) x ->
  Rabs (avg M (fun v => prob L (fun w => let xof := fun _ : list Z => stream (firstn (136 * k) w) in sees (cont v) (hash_to_point k xof lg salt msg z0) (sign RF exact_table m k xof lg skey msg sig (stream (salt ++ skipn (136 * k) w))))) - x) <= dd + E.
Proof.
  intros Lsa Bsa Bsg Ls N3 Tx. set (real := fun v w => let xof := fun _ : list Z => stream (firstn (136 * k) w) in sees (cont v) (hash_to_point k xof lg salt msg z0) (sign RF exact_table m k xof lg skey msg sig (stream (salt ++ skipn (136 * k) w)))).
  set (ph := fun s => prob M (fun v => cont v (point_of lg h s) (bytes_of lg salt sig s))).
  assert (WDs : forall v, {WD | total (fun s => pairN lg s /\ cont v (point_of lg h s) (bytes_of lg salt sig s) = true) (fun s => wts lg s) WD}).
  { intros v. apply (total_exs _ _ WT). intros M' NM DM. apply (total_le (pairN lg) _ WT M' TWT NM). eapply Forall_impl; [|exact DM]. intros s H; apply H. }
  set (G := fun v => proj1_sig (WDs v)). assert (TG : forall v, total (fun s => pairN lg s /\ cont v (point_of lg h s) (bytes_of lg salt sig s) = true) (fun s => wts lg s) (G v)) by (intros v; apply (proj2_sig (WDs v))).
  set (Y := avg M (fun v => G v / WT)).
  assert (TY : total (pairN lg) (fun s => wts lg s / WT * ph s) Y).
  { apply (total_ext_fun _ (fun s => avg M (fun v => / WT * (wts lg s * P_prob.ind (cont v (point_of lg h s) (bytes_of lg salt sig s)))))).
    - intros s. unfold ph. rewrite prob_avg, <- avg_scal. apply avg_ext. intros v _ _. unfold Rdiv. ring.
    - assert (W1 : 0 < / WT) by (apply Rinv_0_lt_compat; exact WT0). unfold Y. apply (total_avg pair_dec (pairN lg) M (fun v s => / WT * (wts lg s * P_prob.ind (cont v (point_of lg h s) (bytes_of lg salt sig s)))) (fun v => G v / WT)).
      + intros v s. apply Rmult_le_pos; [lra|]. apply Rmult_le_pos; [left; apply exp_pos|]. apply ind01.
      + intros v. replace (G v / WT) with (/ WT * G v) by (unfold Rdiv; ring). apply total_scal; [lra|]. apply (total_ind (pairN lg) (fun s => cont v (point_of lg h s) (bytes_of lg salt sig s))); [intros; left; apply exp_pos|]. apply TG. }
  assert (N1 : forall v, Rabs (prob L (real v) - G v / WT) <= dd).
  { intros v. exact (sees_near lg Hlg h salt sig Lsa Bsa Bsg Ls WT WT0 TWT f g F_ G_ h0 HS Lh HK skey HD msg k m n Hm Hn (cont v) (G v) (TG v)). }
  assert (N2 : Rabs (avg M (fun v => prob L (real v)) - Y) <= dd). { eapply Rle_trans; [apply (avg_tri M _ _ (fun _ => dd)); intros v _ _; apply N1|]. rewrite avg_const. apply Rle_refl. }
  assert (e0 : 0 <= E) by (eapply Rle_trans; [apply Rabs_pos|exact (N3 ([], []))]).
  assert (C1 : Y <= x + E * 1). { apply (total_close (pairN lg) (fun s => wts lg s / WT * ph s) (fun s => wts lg s / WT * y s) (fun s => wts lg s / WT)); [exact e0|exact TY|exact Tx|exact (TW1 lg WT WT0 TWT)|]. intros s. assert (P := w1_pos lg WT WT0 s). assert (Q := Rle_trans _ _ _ (Rle_abs _) (N3 s)). rewrite (Rmult_comm E), <- Rmult_plus_distr_l. apply Rmult_le_compat_l; [lra|]. unfold ph. lra. }
  assert (C2 : x <= Y + E * 1). { apply (total_close (pairN lg) (fun s => wts lg s / WT * y s) (fun s => wts lg s / WT * ph s) (fun s => wts lg s / WT)); [exact e0|exact Tx|exact TY|exact (TW1 lg WT WT0 TWT)|]. intros s. assert (P := w1_pos lg WT WT0 s). assert (Q0 := N3 s). rewrite Rabs_minus_sym in Q0. assert (Q := Rle_trans _ _ _ (Rle_abs _) Q0). rewrite (Rmult_comm E), <- Rmult_plus_distr_l. apply Rmult_le_compat_l; [lra|]. unfold ph. lra. }
  change (Rabs (avg M (fun v => prob L (real v)) - x) <= dd + E). replace (avg M (fun v => prob L (real v)) - x) with ((avg M (fun v => prob L (real v)) - Y) + (Y - x)) by ring. eapply Rle_trans; [apply Rabs_triang|]. apply Rplus_le_compat; [exact N2|apply Rabs_le; lra].
Qed.

Lemma game_step r t seen sa u w v : length sa = 40%nat -> length u = (136 * k)%nat -> length w = n ->
  gm (S r) t seen (sa ++ u ++ w ++ v) = let xof := fun a => stream (known t a u) in
    match A seen with
    | ask_hash salt msg => match hashb lg k (known t (salt ++ msg) u) with Ok c => gm r ((salt ++ msg, known t (salt ++ msg) u) :: t) ((c, []) :: seen) v | _ => false end
    | ask_sign msg sig => sees (fun c e => gm r ((sa ++ msg, known t (sa ++ msg) u) :: t) ((c, e) :: seen) v) (hashb lg k (known t (sa ++ msg) u)) (sign RF exact_table m k (fun _ => stream (known t (sa ++ msg) u)) lg skey msg sig (stream (sa ++ w)))
    end.
Proof.
  intros La Lu Lw. cbn [game]. rewrite (firstn_app 40), La, Nat.sub_diag, firstn_O, app_nil_r, (firstn_all2 sa) by lia. rewrite (skipn_app 40), La, Nat.sub_diag, (skipn_all2 sa) by lia. rewrite skipn_O. cbn [app].
  rewrite (firstn_app (136 * k) u), Lu, Nat.sub_diag, firstn_O, app_nil_r, (firstn_all2 u) by lia. rewrite (skipn_app (136 * k) u), Lu, Nat.sub_diag, (skipn_all2 u) by lia. rewrite skipn_O. cbn [app].
  rewrite (firstn_app n w), Lw, Nat.sub_diag, firstn_O, app_nil_r, (firstn_all2 w) by lia.
  assert (ER : skipn L (u ++ w ++ v) = v). { rewrite app_assoc, skipn_app, app_length, Lu, Lw, Nat.sub_diag, skipn_all2 by (rewrite app_length; lia). reflexivity. } rewrite ER.
  cbv zeta. destruct (A seen) as [salt msg|msg sig].
  - change (hash_to_point k (fun a => stream (known t a u)) lg salt msg z0) with (hashb lg k (known t (salt ++ msg) u)). reflexivity.
  - change (hash_to_point k (fun a => stream (known t a u)) lg sa msg z0) with (hashb lg k (known t (sa ++ msg) u)). f_equal. apply sign_table; [exact La|]. reflexivity.
Qed.
Lemma cut r (v : list Z) : length v = (S r * LL)%nat -> exists sa u w v', v = sa ++ u ++ w ++ v' /\ length sa = 40%nat /\ length u = (136 * k)%nat /\ length w = n /\ length v' = (r * LL)%nat.
Proof.
  intros Lv. exists (firstn 40 v), (firstn (136 * k) (skipn 40 v)), (firstn n (skipn (136 * k) (skipn 40 v))), (skipn n (skipn (136 * k) (skipn 40 v))).
  rewrite !firstn_skipn. split; [reflexivity|]. rewrite !firstn_length, !skipn_length, Lv. cbn [Nat.mul]. lia.
Qed.
Lemma game_twin r : forall t t' seen v, Forall2 (twin lg k) t t' -> length v = (r * LL)%nat -> gm r t seen v = gm r t' seen v.
Proof.
  induction r as [|r IH]; intros t t' seen v F Lv; [reflexivity|]. destruct (cut r v Lv) as (sa & u & w & v' & -> & La & Lu & Lw & Lv'). rewrite !game_step by assumption. cbv zeta.
  assert (K := fun a => twin_known lg k t t' a u F).
  assert (F1 : forall a, Forall2 (twin lg k) ((a, known t a u) :: t) ((a, known t' a u) :: t')) by (intros a; constructor; [split; [reflexivity|apply K]|exact F]).
  destruct (A seen) as [salt msg|msg sig].
  - rewrite <- K. destruct (hashb lg k (known t (salt ++ msg) u)); [|reflexivity|reflexivity]. apply IH; [apply F1|exact Lv'].
  - rewrite <- K. assert (ES : sign RF exact_table m k (fun _ => stream (known t (sa ++ msg) u)) lg skey msg sig (stream (sa ++ w)) = sign RF exact_table m k (fun _ => stream (known t' (sa ++ msg) u)) lg skey msg sig (stream (sa ++ w))).
    { apply sign_table; [exact La|]. exact (K (sa ++ msg)). }
    rewrite <- ES. unfold sees. destruct (hashb lg k (known t (sa ++ msg) u)); [|reflexivity|reflexivity]. destruct (sign _ _ _ _ _ _ _ _ _ _) as [[[|] e]| |]; try reflexivity. apply IH; [apply F1|exact Lv'].
Qed.
Notation ee := (/ 256 ^ 40).
Lemma room r a : 0 <= INR r * (dd + INR (a + r) * ee) /\ dd + INR a * ee + INR r * (dd + INR (S a + r) * ee) <= INR (S r) * (dd + INR (a + S r) * ee).
Proof.
  assert (d0 := slack_pos lg k). assert (e0 : 0 < ee) by (apply Rinv_0_lt_compat, pow_lt; lra). assert (r0 := pos_INR r). assert (a0 := pos_INR a).
  split.
  - apply Rmult_le_pos; [exact r0|]. assert (0 <= INR (a + r) * ee) by (apply Rmult_le_pos; [apply pos_INR|lra]). lra.
  - rewrite !plus_INR, !S_INR. set (e := ee) in *. clearbody e. assert (0 <= INR r * e) by (apply Rmult_le_pos; lra).
    replace ((INR r + 1) * (dd + (INR a + (INR r + 1)) * e)) with (dd + INR a * e + INR r * (dd + (INR a + 1 + INR r) * e) + (INR r * e + e)) by ring. lra.
Qed.
Definition linked (e e' : list Z * list Z) : Prop := fst e = fst e' /\ hashb lg k (snd e) = Ok (snd e').
Lemma linked_lookup t p a : Forall2 linked t p -> match lookup t a, lookup p a with Some u, Some c => hashb lg k u = Ok c | None, None => True | _, _ => False end.
Proof. induction 1 as [|[b u] [b' c] t p [E1 E2] F IH]; [exact I|]. cbn [fst snd lookup] in *. subst b'. destruct (list_eq_dec Z.eq_dec a b); [exact E2|exact IH]. Qed.
Lemma twin_refl t : Forall2 (twin lg k) t t.
Proof. induction t as [|e t IH]; constructor; [split; reflexivity|exact IH]. Qed.
Lemma game_avg r t seen : prob (S r * LL) (gm (S r) t seen) = avg 40 (fun sa => avg (136 * k) (fun u => avg n (fun w => avg (r * LL) (fun v => P_prob.ind (gm (S r) t seen (sa ++ u ++ w ++ v)))))).
Proof.
  rewrite prob_avg. replace (S r * LL)%nat with (40 + (136 * k + (n + r * LL)))%nat by lia. rewrite avg_split. apply avg_ext. intros sa _ _. rewrite avg_split. apply avg_ext. intros u _ _. rewrite avg_split. reflexivity.
Qed.
Lemma game_near r : forall t p seen x, Forall2 linked t p -> ideal lg h WT k A D r p seen x -> Rabs (prob (r * LL) (gm r t seen) - x) <= INR r * (dd + INR (length t + r) * ee).
Proof.
  induction r as [|r IH]; intros t p seen x F Hx.
  - cbn [ideal] in Hx. subst x. rewrite Nat.mul_0_l, prob_avg. cbn [avg game INR]. rewrite Rmult_0_l. unfold P_prob.ind. rewrite Rminus_diag_eq by reflexivity. rewrite Rabs_R0. lra.
  - destruct (room r (length t)) as [_ RM]. assert (R1 := proj1 (room r (S (length t)))). assert (d0 := slack_pos lg k). assert (te : 0 <= INR (length t) * ee) by (apply Rmult_le_pos; [apply pos_INR|]; left; apply Rinv_0_lt_compat, pow_lt; lra).
    cbn [ideal] in Hx. assert (HA' := HA seen). rewrite game_avg. destruct (A seen) as [salt msg|msg sig] eqn:EA.
    + (* a hash *)
      assert (X := linked_lookup t p (salt ++ msg) F). destruct (lookup t (salt ++ msg)) as [b|] eqn:Et; destruct (lookup p (salt ++ msg)) as [c|] eqn:Ep; try contradiction.
      * rewrite (avg_ext 40 _ (fun _ => prob (r * LL) (gm r ((salt ++ msg, b) :: t) ((c, []) :: seen)))).
        2:{ intros sa La _. rewrite (avg_ext (136 * k) _ (fun _ => prob (r * LL) (gm r ((salt ++ msg, b) :: t) ((c, []) :: seen)))); [apply avg_const|]. intros u Lu _.
            rewrite (avg_ext n _ (fun _ => prob (r * LL) (gm r ((salt ++ msg, b) :: t) ((c, []) :: seen)))); [apply avg_const|]. intros w Lw _. rewrite prob_avg. apply avg_ext. intros v Lv _.
            rewrite game_step by assumption. cbv zeta. rewrite EA. unfold known. rewrite Et, X. reflexivity. }
        rewrite avg_const. eapply Rle_trans; [apply (IH _ ((salt ++ msg, c) :: p)); [constructor; [split; [reflexivity|exact X]|exact F]|exact Hx]|]. cbn [length]. lra.
      * destruct Hx as (y & Hy & EX). rewrite mean_avg in EX. subst x.
        set (val := fun u => match hashb lg k u with Ok c => prob (r * LL) (gm r ((salt ++ msg, u) :: t) ((c, []) :: seen)) | _ => 0 end).
        rewrite (avg_ext 40 _ (fun _ => avg (136 * k) val)).
        2:{ intros sa La _. apply avg_ext. intros u Lu _. rewrite (avg_ext n _ (fun _ => val u)); [apply avg_const|]. intros w Lw _. unfold val. destruct (hashb lg k u) as [c| |] eqn:EU.
            - rewrite prob_avg. apply avg_ext. intros v Lv _. rewrite game_step by assumption. cbv zeta. rewrite EA. unfold known. rewrite Et, EU. reflexivity.
            - rewrite <- (avg_const (r * LL) 0). apply avg_ext. intros v Lv _. rewrite game_step by assumption. cbv zeta. rewrite EA. unfold known. rewrite Et, EU. reflexivity.
            - rewrite <- (avg_const (r * LL) 0). apply avg_ext. intros v Lv _. rewrite game_step by assumption. cbv zeta. rewrite EA. unfold known. rewrite Et, EU. reflexivity. }
        rewrite avg_const. eapply Rle_trans; [apply (avg_tri (136 * k) val _ (fun _ => INR r * (dd + INR (S (length t) + r) * ee)))|rewrite avg_const; lra].
        intros u Lu Bu. change (hash_to_point k (fun _ => stream u) lg salt msg z0) with (hashb lg k u). unfold val. destruct (hashb lg k u) as [c| |] eqn:EU; [|rewrite Rminus_diag_eq, Rabs_R0 by reflexivity; exact R1|rewrite Rminus_diag_eq, Rabs_R0 by reflexivity; exact R1].
        apply (IH ((salt ++ msg, u) :: t) ((salt ++ msg, c) :: p)); [constructor; [split; [reflexivity|exact EU]|exact F]|apply Hy].
    + (* a signature *)
      destruct HA' as [Bsg Ls]. destruct Hx as (z & Hz & EX). rewrite mean_avg in EX. subst x.
      eapply Rle_trans; [apply (avg_tri 40 _ z (fun sa => P_prob.ind (found t (sa ++ msg)) + (dd + INR r * (dd + INR (S (length t) + r) * ee))))|].
      2:{ rewrite avg_plus, avg_const. assert (Q := found_rare t msg). lra. }
      intros sa La Ba. destruct (Hz sa) as (y & Hy & Ty). destruct (found t (sa ++ msg)) eqn:EF; unfold found in EF.
      * cbn [P_prob.ind]. assert (Z01 : 0 <= z sa <= 1).
        { assert (Y01 : forall s, 0 <= y s <= 1) by (intros s; exact (ideal_01 r _ _ _ (Hy s))). split.
          - exact (total_le _ _ _ [] Ty (NoDup_nil _) (Forall_nil _)).
          - apply (total_ub _ _ _ _ Ty). intros M NM DM. eapply Rle_trans; [apply (lsum_le _ (fun s => wts lg s / WT))|exact (total_le _ _ _ M (TW1 lg WT WT0 TWT) NM DM)].
            intros s _. assert (P := w1_pos lg WT WT0 s). rewrite <- (Rmult_1_r (wts lg s / WT)) at 2. apply Rmult_le_compat_l; [lra|apply Y01]. }
        assert (V01 : 0 <= avg (136 * k) (fun u => avg n (fun w => avg (r * LL) (fun v => P_prob.ind (gm (S r) t seen (sa ++ u ++ w ++ v))))) <= 1) by (apply avg_in01; intros u; apply avg_in01; intros w; apply avg_in01; intros v; apply ind01).
        apply Rabs_le. lra.
      * cbn [P_prob.ind]. rewrite Rplus_0_l. destruct (lookup t (sa ++ msg)) eqn:Et; [discriminate EF|].
        set (cont := fun v c e => gm r ((sa ++ msg, unhash c) :: t) ((c, e) :: seen) v).
        assert (EV : avg (136 * k) (fun u => avg n (fun w => avg (r * LL) (fun v => P_prob.ind (gm (S r) t seen (sa ++ u ++ w ++ v))))) =
          avg (r * LL) (fun v => prob L (fun w => let xof := fun _ : list Z => stream (firstn (136 * k) w) in sees (cont v) (hash_to_point k xof lg sa msg z0) (sign RF exact_table m k xof lg skey msg sig (stream (sa ++ skipn (136 * k) w)))))).
        { transitivity (avg (r * LL) (fun v => avg (136 * k) (fun u => avg n (fun w => P_prob.ind (gm (S r) t seen (sa ++ u ++ w ++ v)))))).
          - etransitivity; [|apply avg_swap]. apply avg_ext. intros u _ _. apply avg_swap.
          - apply avg_ext. intros v Lv _. rewrite prob_avg, avg_split. apply avg_ext. intros u Lu Bu. apply avg_ext. intros w Lw _. f_equal. rewrite game_step by assumption. cbv zeta. rewrite EA. unfold known. rewrite Et.
            rewrite (firstn_app (136 * k) u), Lu, Nat.sub_diag, firstn_O, app_nil_r, (firstn_all2 u) by lia. rewrite (skipn_app (136 * k) u), Lu, Nat.sub_diag, (skipn_all2 u) by lia. rewrite skipn_O. cbn [app].
            change (hash_to_point k (fun _ => stream u) lg sa msg z0) with (hashb lg k u). unfold sees. destruct (hashb lg k u) as [c| |] eqn:EU; [|reflexivity|reflexivity]. destruct (sign _ _ _ _ _ _ _ _ _ _) as [[[|] e]| |]; try reflexivity.
            unfold cont. destruct (hashb_facts lg k u c Bu EU) as [Lc Cc]. apply game_twin; [|exact Lv]. constructor; [|apply twin_refl]. split; [reflexivity|]. cbn [snd]. rewrite EU, (hashb_unhash lg k c Hlg Hk Lc Cc). reflexivity. }
        rewrite EV. apply (step_near sa msg sig (r * LL) cont y (z sa)); [exact La|exact Ba|exact Bsg|exact Ls| |exact Ty].
        intros s. destruct (point_facts lg h s) as [Lp Cp]. apply (IH ((sa ++ msg, unhash (point_of lg h s)) :: t) ((sa ++ msg, point_of lg h s) :: p)); [|apply Hy].
        constructor; [|exact F]. split; [reflexivity|]. cbn [snd]. apply hashb_unhash; assumption.
Qed.
End Game.
Theorem oracle_sim lg : falcon_lg lg ->
  exists W, 0 < W /\ total (fun s => length (fst s) = (2 ^ lg)%nat /\ length (snd s) = (2 ^ lg)%nat) (fun s => exp (- (IZR (sqnorm (fst s) + sqnorm (snd s)) / (2 * (sigma_value RF lg * sigma_value RF lg))))) W /\
  forall h (A : view -> request) (D : view -> bool) k r, (512 <= k)%nat -> (forall seen, match A seen with ask_hash _ _ => True | ask_sign _ sig => bytes sig /\ (sig_bytes lg + 2 <= length sig)%nat end) ->
  exists x, (forall x', ideal lg h W k A D r [] [] x' <-> x' = x) /\ 0 <= x <= 1 /\
  forall f g F_ G_ h0, sound_key lg f g F_ G_ -> length h0 = (2 ^ lg)%nat -> compute_public_key lg f g h0 = Ok h ->
  forall skey, decode_skey lg skey (repeat 0%Z (2 ^ lg)) (repeat 0%Z (2 ^ lg)) (repeat 0%Z (2 ^ lg)) = Ok (true, (f, g, F_)) ->
  forall m n, (1 <= m)%nat -> (36 * k * 2 ^ lg * m <= n)%nat ->
  Rabs (prob (r * (40 + (136 * k + n))) (game lg skey k m n A D r [] []) - x) <= INR r * ((if Nat.eqb lg 9 then 1 / 10000 else 13 / 1000) + INR r / 256 ^ 40).
Proof.
  intros Hlg. destruct (pair_total lg Hlg) as (W & W0 & TW). exists W. split; [exact W0|]. split; [exact TW|]. intros h A D k r Hk HA. destruct (ideal_sig lg h W W0 TW A D k r [] []) as (x & Hx & Bx). exists x.
  split; [|split; [exact Bx|]].
  - intros x'. split; [intros H; exact (ideal_unique lg h W A D k r [] [] x' x H Hx)|intros ->; exact Hx].
  - intros f g F_ G_ h0 HS Lh HK skey HD m n Hm Hn. eapply Rle_trans; [exact (game_near lg Hlg h W W0 TW A D k f g F_ G_ h0 HS Lh HK skey HD m n Hk Hm Hn HA r [] [] [] x (Forall2_nil _) Hx)|].
    apply Rmult_le_compat_l; [apply pos_INR|]. apply Rplus_le_compat; [exact (slack_small lg k Hlg Hk)|]. apply Rle_refl.
Qed.
Lemma oracle_example : let A : view -> request := fun seen => if Nat.even (length seen) then ask_sign (concat (map snd seen)) (repeat 0%Z 668) else ask_hash (firstn 40 (skipn 1 (concat (map snd seen)))) [] in
  (forall seen, match A seen with ask_hash _ _ => True | ask_sign _ sig => bytes sig /\ (sig_bytes 9 + 2 <= length sig)%nat end) /\ A [] = ask_sign [] (repeat 0%Z 668) /\ A [([], [])] = ask_hash [] [] /\
  exists h skey, compute_public_key 9 P_key.kf P_key.kg (repeat 0%Z 512) = Ok h /\
    decode_skey 9 skey (repeat 0%Z 512) (repeat 0%Z 512) (repeat 0%Z 512) = Ok (true, (P_key.kf, P_key.kg, P_key.kF)) /\ sound_key 9 P_key.kf P_key.kg P_key.kF P_key.kG.
Proof.
  intros A. split.
  - intros seen. unfold A. destruct (Nat.even (length seen)); [|exact I]. split; [apply Forall_forall; intros x Hx; apply repeat_spec in Hx; subst x; unfold byte; lia|]. rewrite repeat_length. apply Nat.leb_le. reflexivity.
  - split; [reflexivity|]. split; [reflexivity|]. destruct k_checks as (h & skey & pk & HK & _ & HD & HS & _). exists h, skey. split; [exact HK|]. split; [exact HD|exact HS].
Qed.
