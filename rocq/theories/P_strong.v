(** P_strong.v -- from forgeries, or second signatures, to short vectors of the public lattice. *)
From Verif Require Import Base Spec SpecT SpecU SpecV SpecX SpecY SpecR SpecS SpecG SpecJ SpecH SpecM M_ff M_codec M_ntt M_sig M_verify M_float M_exact M_samp M_fft M_ntru M_tree P_prob P_gsum P_jprob P_jgauss P_jkey P_jcoset P_kubx P_widek P_sim P_fitm P_fits P_vers P_simsig P_loopk P_adapt P_rom P_solve P_guess P_coll P_play P_reduce.
From Verif Require P_genlaw P_key P_live P_verifyx P_decomp P_hash P_nttx P_keys P_ff P_sigx P_signv P_sig P_comp P_loops.
From Coq Require Import Lra.
Open Scope R_scope.

(** what sign writes besides the body *)
Lemma sign_out lg (Hlg : falcon_lg lg) f g F_ G_ h0 h : sound_key lg f g F_ G_ -> length h0 = (2 ^ lg)%nat -> compute_public_key lg f g h0 = Ok h ->
  forall skey, decode_skey lg skey (repeat 0%Z (2 ^ lg)) (repeat 0%Z (2 ^ lg)) (repeat 0%Z (2 ^ lg)) = Ok (true, (f, g, F_)) ->
  forall msg salt sig k m u w e, length salt = 40%nat -> bytes salt -> bytes sig -> (sig_bytes lg + 2 <= length sig)%nat -> bytes u -> bytes w ->
    sign RF exact_table m k (fun _ => stream u) lg skey msg sig (stream (salt ++ w)) = Ok (true, e) -> bytes e /\ (sig_bytes lg + 2 <= length e)%nat /\ firstn 40 (skipn 1 e) = salt.
Proof.
  intros HS Lh HK skey HD msg salt sig k m u w e Lsa Bsa Bsg Ls Bu Bw Es.
  assert (Hx : forall a : list Z, byte_stream ((fun _ : list Z => stream u) a)) by (intros a; apply P_hash.stream_bytes; exact Bu).
  assert (Hr : byte_stream (stream (salt ++ w))) by (apply P_hash.stream_bytes, Forall_app; split; assumption).
  destruct HS as (Lf & Lg & LF & LG & HN & _ & _ & _ & BG & Sf & Sg & HI).
  assert (RG : Forall (fun x => -2147483648 <= x <= 2147483647)%Z G_). { refine (Forall_impl _ _ BG). intros x Hx0. cbv beta in Hx0. lia. }
  destruct (P_nttx.public_key_spec lg f g h0 Hlg Lf Lg Lh Sf Sg HI) as (h' & E' & Lh' & Ch & _). assert (h' = h) by congruence. subst h'.
  destruct (P_keys.pk_round lg h (repeat 0%Z (pkey_len lg)) (repeat 0%Z (2 ^ lg)) Hlg Lh' ltac:(eapply Forall_impl; [|exact Ch]; intros a; apply P_ff.canon_lt14) (repeat_length _ _) (repeat_length _ _)) as (pk & Ep & _).
  destruct (P_signv.sign_verifies lg Hlg f g F_ G_ Lf Lg LF LG HN (fun _ => stream u) Hx Sf Sg HI RG m k skey msg sig _ e true h0 h _ pk Bsg Ls Hr Lh (repeat_length _ _) HK Ep HD Es) as [_ X]. cbv zeta in X.
  assert (ES : map (stream (salt ++ w)) (seq 0 40) = salt) by (etransitivity; [|exact (P_loops.stream_salt lg h0 Lh salt w Lsa)]; apply map_ext; intros i; reflexivity). rewrite ES in X.
  destruct X as (c' & s1' & s2' & body & _ & _ & L2 & _ & _ & Bb & TB & EB & Ee & _). destruct (P_sigx.sig_dims lg Hlg) as (D1 & D2 & D3 & D4).
  assert (Lb : length body = (sig_bytes lg - 41)%nat). { assert (Q := f_equal (@length bool) EB). rewrite app_length, repeat_length, P_sig.bits_of_length in Q. assert (EL := P_comp.encs_length s2'). assert (BL : body_len lg = (8 * Z.of_nat (sig_bytes lg - 41))%Z) by (destruct Hlg as [->| ->]; reflexivity). lia. }
  split; [|split].
  - rewrite Ee. apply Forall_app. split; [apply Forall_cons; [destruct Hlg as [-> | ->]; split; reflexivity || discriminate|exact Bsa]|]. apply Forall_app. split; [exact Bb|]. apply Forall_forall. intros x Hx0. unfold bytes in Bsg. rewrite Forall_forall in Bsg. apply Bsg. rewrite <- (firstn_skipn (sig_bytes lg) sig). apply in_app_iff. right. exact Hx0.
  - rewrite Ee, !app_length, skipn_length. cbn [length]. lia.
  - rewrite Ee. cbn [app skipn]. rewrite firstn_app, Lsa, Nat.sub_diag, firstn_O, app_nil_r, <- Lsa. apply firstn_all.
Qed.

Section Strong.
Variables (lg : nat) (Hlg : falcon_lg lg) (h : list Z) (A : view -> request) (F : view -> nat * list Z) (k : nat).
Hypothesis Hk : (512 <= k)%nat.
Hypothesis HF : forall seen, bytes (snd (F seen)) /\ (sig_bytes lg + 2 <= length (snd (F seen)))%nat.
Hypothesis HA : forall seen, match A seen with ask_hash _ _ => True | ask_sign _ sig => bytes sig /\ (sig_bytes lg + 2 <= length sig)%nat end.
Notation z0 := (repeat 0%Z (2 ^ lg)).

(** the two signatures of one point, from outside *)
Definition double (seen : view) : bool :=
  match nth (fst (F seen)) seen ([], []) with
  | (_, []) => false
  | (c, e) => short_vector lg h (distance lg h F seen [])
  end.
Definition hits (seen : view) : bool := aims lg h F seen || double seen.
Definition signed_in (t : list (list Z * list Z)) (seen : view) : Prop := 
  forall j c e msg sg, nth_error seen j = Some (c, e) -> A (skipn (S j) seen) = ask_sign msg sg ->
    bytes e /\ (sig_bytes lg + 2 <= length e)%nat /\ exists u, lookup t (firstn 40 (skipn 1 e) ++ msg) = Some u /\ hashb lg k u = Ok c.
Lemma altered_double pk t seen : bytes pk -> length pk = pkey_len lg -> decode_pkey lg pk z0 = Ok (true, h) -> Forall (fun e => bytes (snd e)) t -> signed_in t seen -> altered lg pk k A F t seen = true -> double seen = true.
Proof.
  intros Bp Lp Hp Bt Ht H. unfold altered in H. assert (HF' := HF seen). unfold double, distance. destruct (F seen) as [j sig]. cbn [fst snd] in *. destruct HF' as [Bs Ls]. destruct (nth_error seen j) as [[c e]|] eqn:En; [|discriminate].
  destruct (A (skipn (S j) seen)) as [|msg sg] eqn:EA; [discriminate|]. destruct (Ht j c e msg sg En EA) as (Be & Le & u & Hu & Hh). assert (Bu := lookup_bytes t _ u Bt Hu).
  rewrite (nth_error_nth _ _ _ En). destruct e as [|y e']; [exfalso; cbn [length] in Le; lia|]. set (e := y :: e') in *. clearbody e. clear y e'.
  destruct (list_eq_dec Z.eq_dec (firstn 40 (skipn 1 e)) (firstn 40 (skipn 1 sig))) as [Es|]; [|discriminate]. cbn [andb] in H.
  destruct (verify Strict k _ lg pk msg e) as [[|]| |] eqn:EV; try discriminate. destruct (verify Strict k _ lg pk msg sig) as [[|]| |] eqn:EV'; try discriminate. cbn [andb] in H.
  assert (Hx : forall a, byte_stream (stream (known t a []))). { intros a. apply P_hash.stream_bytes. unfold known. destruct (lookup t a) eqn:E; [exact (lookup_bytes t a _ Bt E)|constructor]. }
  destruct (P_decomp.decompress_iff lg e z0 Hlg Be Le (repeat_length _ _)) as (b & s2 & E1 & _ & _ & A1). destruct (P_decomp.decompress_iff lg sig z0 Hlg Bs Ls (repeat_length _ _)) as (b' & s2' & E1' & _ & _ & A1').
  destruct (proj1 (P_verifyx.verify_true_iff (fun a => stream (known t a [])) lg pk msg e Hlg Hx Bp Lp Be Le) (ex_intro _ k EV)) as (_ & r2 & _ & _ & _ & Ac & _ & _).
  destruct (proj1 (P_verifyx.verify_true_iff (fun a => stream (known t a [])) lg pk msg sig Hlg Hx Bp Lp Bs Ls) (ex_intro _ k EV')) as (_ & r2' & _ & _ & _ & Ac' & _ & _).
  destruct (A1 r2 Ac) as [-> _]. destruct (A1' r2' Ac') as [-> _]. rewrite E1, E1' in H |- *. destruct (list_eq_dec Z.eq_dec s2 s2') as [|N]; [discriminate|].
  destruct (two_signatures (fun a => stream (known t a [])) lg pk msg sig e h s2' s2 Hlg Hx Bp Lp Bs Ls Be Le Hp (eq_sym Es) (ex_intro _ k EV') (ex_intro _ k EV) E1' E1 (fun Q => N (eq_sym Q))) as (c' & Hc' & SV).
  rewrite <- Es in Hc'. unfold known in Hc'. rewrite Hu in Hc'. unfold hashb in Hh. apply P_verifyx.hash_hashed in Hh; [|apply P_hash.stream_bytes; exact Bu|apply repeat_length]. assert (Ec := P_verifyx.hashed_unique _ _ _ _ Hc' Hh). subst c'.
  destruct e as [|y e']; [exfalso; cbn [length] in Le; lia|]. exact SV.
Qed.

Section Real.
Variables (f g F_ G_ h0 : list Z).
Hypotheses (HS : sound_key lg f g F_ G_) (Lh : length h0 = (2 ^ lg)%nat) (HK : compute_public_key lg f g h0 = Ok h).
Variable skey : list Z.
Hypothesis HD : decode_skey lg skey z0 z0 z0 = Ok (true, (f, g, F_)).
Variables (m n : nat).
Hypothesis Hn : (1 <= m)%nat.
Hypothesis Hn' : (36 * k * 2 ^ lg * m <= n)%nat.
Notation pl T := (play lg skey k m n A T).
Notation LL := (40 + (136 * k + n))%nat.
Lemma strong_mono (T T' : list (list Z * list Z) -> view -> bool) : (forall t seen, tabled lg A k t seen -> signed_in t seen -> T t seen = true -> T' t seen = true) ->
  forall r t seen v, length v = (r * LL)%nat -> bytes v -> tabled lg A k t seen -> signed_in t seen -> pl T r t seen v = true -> pl T' r t seen v = true.
Proof.
  intros HT. induction r as [|r IH]; intros t seen v Lv Bv HI HJ H; [exact (HT t seen HI HJ H)|].
  destruct (P_rom.cut lg k z0 (repeat_length _ _) m n Hk Hn Hn' r v Lv) as (sa & u & w & v' & -> & La & Lu & Lw & Lv').
  unfold bytes in Bv. apply Forall_app in Bv. destruct Bv as [Ba Bv]. apply Forall_app in Bv. destruct Bv as [Bu Bv]. apply Forall_app in Bv. destruct Bv as [Bw Bv].
  assert (PS := play_step lg A k z0 (repeat_length _ _) skey m n Hk Hn Hn' HA). rewrite PS in H by assumption. rewrite PS by assumption. clear PS. destruct HI as [Bt Ht]. assert (HAs := HA seen). destruct (A seen) as [salt msg|msg sig] eqn:EA.
  - destruct (lookup t (salt ++ msg)) as [u0|] eqn:Et.
    + apply IH; [exact Lv'|exact Bv| | |exact H].
      * split; [exact Bt|]. intros [|j] x c salt' msg' N EA'; [discriminate N|]. exact (Ht j x c salt' msg' N EA').
      * intros [|j] c e msg' sg N EA'; [cbn [skipn] in EA'; rewrite EA in EA'; discriminate EA'|]. exact (HJ j c e msg' sg N EA').
    + destruct (hashb lg k u) as [c0| |] eqn:EU; [|discriminate|discriminate]. apply IH; [exact Lv'|exact Bv| | |exact H].
      * split; [constructor; [exact Bu|exact Bt]|]. intros [|j] x c salt' msg' N EA'.
        -- cbn [skipn] in EA'. cbn [nth_error] in N. rewrite EA in EA'. injection EA' as <- <-. injection N as N. subst c0. exists u. cbn [lookup]. destruct (list_eq_dec Z.eq_dec (salt ++ msg) (salt ++ msg)) as [_|C]; [|contradict C; reflexivity]. split; [reflexivity|exact EU].
        -- destruct (Ht j x c salt' msg' N EA') as (u1 & H1 & H2). exists u1. split; [|exact H2]. cbn [lookup]. destruct (list_eq_dec Z.eq_dec (salt' ++ msg') (salt ++ msg)) as [E|_]; [|exact H1]. rewrite E, Et in H1. discriminate H1.
      * intros [|j] c e msg' sg N EA'; [cbn [skipn] in EA'; rewrite EA in EA'; discriminate EA'|]. destruct (HJ j c e msg' sg N EA') as (Be & Le & u1 & H1 & H2). split; [exact Be|]. split; [exact Le|]. exists u1. split; [|exact H2].
        cbn [lookup]. destruct (list_eq_dec Z.eq_dec (firstn 40 (skipn 1 e) ++ msg') (salt ++ msg)) as [E|_]; [|exact H1]. rewrite E, Et in H1. discriminate H1.
  - assert (BK : bytes (known t (sa ++ msg) u)) by (unfold known; destruct (lookup t (sa ++ msg)) eqn:Et; [exact (lookup_bytes t _ _ Bt Et)|exact Bu]).
    unfold sees in *. destruct (hashb lg k (known t (sa ++ msg) u)) as [c0| |] eqn:EU; [|discriminate|discriminate]. destruct (sign _ _ _ _ _ _ _ _ _ _) as [[[|] e0]| |] eqn:ES; try discriminate. destruct HAs as [Bsg Lsg].
    destruct (sign_out lg Hlg f g F_ G_ h0 h HS Lh HK skey HD msg sa sig k m _ w e0 La Ba Bsg Lsg BK Bw ES) as (Be0 & Le0 & Es0).
    apply IH; [exact Lv'|exact Bv| | |exact H].
    + split.
      * constructor; [exact BK|exact Bt].
      * intros [|j] x c salt' msg' N EA'; [cbn [skipn] in EA'; rewrite EA in EA'; discriminate EA'|]. destruct (Ht j x c salt' msg' N EA') as (u1 & H1 & H2). exists u1. split; [|exact H2]. cbn [lookup].
        destruct (list_eq_dec Z.eq_dec (salt' ++ msg') (sa ++ msg)) as [E|_]; [|exact H1]. unfold known. rewrite <- E, H1. reflexivity.
    + intros [|j] c e msg' sg N EA'.
      * cbn [skipn] in EA'. cbn [nth_error] in N. rewrite EA in EA'. injection EA' as <- <-. injection N as <- <-. split; [exact Be0|]. split; [exact Le0|]. rewrite Es0. exists (known t (sa ++ msg) u). split; [|exact EU]. cbn [lookup].
        destruct (list_eq_dec Z.eq_dec (sa ++ msg) (sa ++ msg)) as [_|C]; [reflexivity|contradict C; reflexivity].
      * destruct (HJ j c e msg' sg N EA') as (Be & Le & u1 & H1 & H2). split; [exact Be|]. split; [exact Le|]. exists u1. split; [|exact H2]. cbn [lookup].
        destruct (list_eq_dec Z.eq_dec (firstn 40 (skipn 1 e) ++ msg') (sa ++ msg)) as [E|_]; [|exact H1]. unfold known. rewrite <- E, H1. reflexivity.
Qed.
End Real.

(** ** the experiment without the key *)
Notation found := (fun seen drawn => short_vector lg h (distance lg h F seen drawn)).
Lemma hits_cases r seen drawn : Forall2 (step_entry lg h) seen drawn -> length seen = r -> hits seen = true ->
  found seen drawn = true \/ (guess (target lg h F) r seen drawn || bigd lg seen drawn)%bool = true.
Proof.
  intros HI Lr H. unfold hits in H. apply Bool.orb_true_iff in H. destruct H as [H|H].
  - destruct (aims_cases lg Hlg h F HF r seen drawn HI Lr H) as [Q|Q]; [left|right; exact Q]. unfold aims in H. destruct (target lg h F seen) as [[j s]|] eqn:ET; [|discriminate].
    unfold distance. destruct (F seen) as [j' sig] eqn:EF. destruct (target_place lg h F seen j s ET) as (x & c & En). assert (j' = j).
    { unfold target in ET. rewrite EF in ET. destruct (nth_error seen j') as [[[|x' c'] [|y' e']]|]; try discriminate. destruct (decompress_sig lg sig z0) as [[[|] s2]| |]; try discriminate. destruct (Z.leb _ _); [|discriminate]. congruence. }
    subst j'. rewrite (nth_error_nth _ _ _ En). exact Q.
  - left. unfold double in H. unfold distance in *. destruct (F seen) as [j sig]. cbn [fst] in H. destruct (nth j seen ([], [])) as [c [|y e]]; [discriminate|]. exact H.
Qed.
Variables (WT : R) (WT0 : 0 < WT) (TWT : total (pairN lg) (fun s => wts lg s) WT).
Hypothesis Htau : forall L, NoDup L -> Forall (fun s => pairN lg s /\ shortb lg s = false) L -> lsum (fun s => wts lg s) L <= (981 / 1000) ^ 2 ^ lg * WT.
Lemma hits_le r x x1 : solver lg h WT A (fun sn _ => hits sn) r [] [] [] x -> solver lg h WT A found r [] [] [] x1 -> x <= x1 + INR r * (2 * slack lg k).
Proof.
  intros H H1. destruct (solver_sig lg h WT WT0 TWT A (fun sn dn => guess (target lg h F) r sn dn || bigd lg sn dn)%bool r [] [] []) as (x2 & H2 & _).
  destruct (solver_sig lg h WT WT0 TWT A (guess (target lg h F) r) r [] [] []) as (x3 & H3 & _). destruct (solver_sig lg h WT WT0 TWT A (bigd lg) r [] [] []) as (x4 & H4 & _).
  assert (U1 : x <= x1 + x2).
  { refine (union_le lg h WT WT0 A (fun sn _ => hits sn) found (fun sn dn => guess (target lg h F) r sn dn || bigd lg sn dn)%bool (fun i sn dn => Forall2 (step_entry lg h) sn dn /\ (length sn + i)%nat = r) _ _ r [] [] [] x x1 x2 _ H H1 H2).
    - intros i sn dn e s [I1 I2] HE. split; [constructor; [exact HE|exact I1]|]. cbn [length]. lia.
    - intros sn dn [I1 I2] Q. apply (hits_cases r); [exact I1|lia|exact Q].
    - split; [constructor|]. reflexivity. }
  assert (U2 : x2 <= x3 + x4).
  { refine (union_le lg h WT WT0 A (fun sn dn => guess (target lg h F) r sn dn || bigd lg sn dn)%bool (guess (target lg h F) r) (bigd lg) (fun _ _ _ => True) (fun _ _ _ _ _ _ _ => I) _ r [] [] [] x2 x3 x4 I H2 H3 H4). intros sn dn _ Q. apply Bool.orb_true_iff. exact Q. }
  assert (U3 := guess_le lg h WT WT0 TWT A _ Htau (target lg h F) (target_place lg h F) r [] [] [] x3 H3). assert (G := weight_big lg Hlg WT TWT). assert (T := tau_slack lg k).
  assert (G2 : (/ 2) ^ 2 ^ lg <= (981 / 1000) ^ 2 ^ lg) by (apply pow_incr; lra).
  assert (U4 := big_le lg h WT WT0 TWT A ((981 / 1000) ^ 2 ^ lg) ltac:(apply pow_le; lra) Htau ltac:(destruct Hlg as [-> | ->]; reflexivity) r [] [] [] x4 eq_refl H4).
  assert (r0 := pos_INR r). set (a := 12289 ^ 2 ^ lg / WT) in *. set (b := (981 / 1000) ^ 2 ^ lg) in *. set (c := (/ 2) ^ 2 ^ lg) in *. clearbody a b c.
  assert (INR r * a <= INR r * slack lg k) by (apply Rmult_le_compat_l; lra). assert (INR r * b <= INR r * slack lg k) by (apply Rmult_le_compat_l; lra). lra.
Qed.
End Strong.

Theorem strong_solves lg : falcon_lg lg ->
  exists W, 0 < W /\ total (fun s => length (fst s) = (2 ^ lg)%nat /\ length (snd s) = (2 ^ lg)%nat) (fun s => exp (- (IZR (sqnorm (fst s) + sqnorm (snd s)) / (2 * (sigma_value RF lg * sigma_value RF lg))))) W /\
  forall h (A : view -> request) (F : view -> nat * list Z) k r, (512 <= k)%nat -> (forall seen, match A seen with ask_hash _ _ => True | ask_sign _ sig => bytes sig /\ (sig_bytes lg + 2 <= length sig)%nat end) ->
  (forall seen, bytes (snd (F seen)) /\ (sig_bytes lg + 2 <= length (snd (F seen)))%nat) ->
  exists x, (forall x', solver lg h W A (fun seen drawn => short_vector lg h (distance lg h F seen drawn)) r [] [] [] x' <-> x' = x) /\ 0 <= x <= 1 /\
  forall f g F_ G_ h0, sound_key lg f g F_ G_ -> length h0 = (2 ^ lg)%nat -> compute_public_key lg f g h0 = Ok h ->
  forall pk, bytes pk -> length pk = pkey_len lg -> decode_pkey lg pk (repeat 0%Z (2 ^ lg)) = Ok (true, h) ->
  forall skey, decode_skey lg skey (repeat 0%Z (2 ^ lg)) (repeat 0%Z (2 ^ lg)) (repeat 0%Z (2 ^ lg)) = Ok (true, (f, g, F_)) ->
  forall m n, (1 <= m)%nat -> (36 * k * 2 ^ lg * m <= n)%nat ->
  prob (r * (40 + (136 * k + n))) (play lg skey k m n A (fun t seen => forged lg pk k A F t seen || altered lg pk k A F t seen) r [] []) <=
    x + INR r * ((if Nat.eqb lg 9 then 4 / 10000 else 52 / 1000) + INR r / 256 ^ 40).
Proof.
  intros Hlg. destruct (pair_total lg Hlg) as (W & W0 & TW). exists W. split; [exact W0|]. split; [exact TW|]. intros h A F k r Hk HA HF.
  destruct (solver_sig lg h W W0 TW A (fun seen drawn => short_vector lg h (distance lg h F seen drawn)) r [] [] []) as (x & Hx & Bx). exists x. split; [|split; [exact Bx|]].
  - intros x'. split; [intros H; exact (solver_unique lg h W A _ r [] [] [] x' x H Hx)|intros ->; exact Hx].
  - intros f g F_ G_ h0 HS Lh HK pk Bp Lp Hp skey HD m n Hm Hn. destruct (solver_sig lg h W W0 TW A (fun sn _ => hits lg h F sn) r [] [] []) as (xa & Ha & _).
    assert (N := play_near lg Hlg h W W0 TW A k f g F_ G_ h0 HS Lh HK skey HD m n Hk Hm Hn HA (hits lg h F) r [] [] [] xa Ha). change (length (@nil (list Z * list Z)) + r)%nat with r in N.
    assert (S1 := hits_le lg Hlg h A F k Hk HF HA W W0 TW (long_all lg Hlg f g F_ G_ h0 h HS Lh HK W TW) r xa x Ha Hx).
    set (T := fun t seen => forged lg pk k A F t seen || altered lg pk k A F t seen).
    assert (M : prob (r * (40 + (136 * k + n))) (play lg skey k m n A T r [] []) <= prob (r * (40 + (136 * k + n))) (play lg skey k m n A (fun _ => hits lg h F) r [] [])).
    { rewrite !prob_avg. apply avg_mono. intros v Lv Bv. destruct (play lg skey k m n A T r [] [] v) eqn:E; [|apply ind01].
      assert (E' : play lg skey k m n A (fun _ => hits lg h F) r [] [] v = true); [|rewrite E'; apply Rle_refl].
      refine (strong_mono lg Hlg h A k Hk HA f g F_ G_ h0 HS Lh HK skey HD m n Hm Hn T (fun _ => hits lg h F) _ r [] [] v Lv Bv _ _ E).
      - intros t seen HT HJ Q. unfold T in Q. apply Bool.orb_true_iff in Q. unfold hits. apply Bool.orb_true_iff. destruct Q as [Q|Q]; [left; exact (forged_aims lg Hlg h A F k HF pk t seen Bp Lp Hp HT Q)|right]. exact (altered_double lg Hlg h A F k Hk HF HA pk t seen Bp Lp Hp (proj1 HT) HJ Q).
      - split; [constructor|]. intros [|j] a c salt msg Q; discriminate Q.
      - intros [|j] a c salt msg Q; discriminate Q. }
    assert (N' := Rle_trans _ _ _ (Rle_abs _) N). assert (SL := slack_small lg k Hlg Hk). assert (r0 := pos_INR r).
    assert (B4 : INR r * (4 * slack lg k) <= INR r * (if Nat.eqb lg 9 then 4 / 10000 else 52 / 1000)) by (apply Rmult_le_compat_l; [exact r0|]; destruct (Nat.eqb lg 9); lra).
    unfold Rdiv at 3. set (d := slack lg k) in *. set (e := / 256 ^ 40) in *. clearbody d e. rewrite Rmult_plus_distr_l. replace (INR r * (2 * d + INR r * e)) with (INR r * (2 * d) + INR r * (INR r * e)) in N' by ring. lra.
Qed.
Lemma strong_example : let A : view -> request := fun seen => if Nat.even (length seen) then ask_hash (repeat 3%Z 40) (concat (map snd seen)) else ask_sign (concat (map fst seen)) (repeat 0%Z 668) in
  let F : view -> nat * list Z := fun seen => (0%nat, 57%Z :: firstn 40 (skipn 1 (map (fun b => b mod 256)%Z (snd (hd ([], []) seen)))) ++ repeat 0%Z 667) in
  (forall seen, match A seen with ask_hash _ _ => True | ask_sign _ sig => bytes sig /\ (sig_bytes 9 + 2 <= length sig)%nat end) /\
  (forall seen, bytes (snd (F seen)) /\ (sig_bytes 9 + 2 <= length (snd (F seen)))%nat) /\ A [] = ask_hash (repeat 3%Z 40) [] /\
  exists h skey pk, compute_public_key 9 P_key.kf P_key.kg (repeat 0%Z 512) = Ok h /\ bytes pk /\ length pk = pkey_len 9 /\ decode_pkey 9 pk (repeat 0%Z 512) = Ok (true, h) /\
    decode_skey 9 skey (repeat 0%Z 512) (repeat 0%Z 512) (repeat 0%Z 512) = Ok (true, (P_key.kf, P_key.kg, P_key.kF)) /\ sound_key 9 P_key.kf P_key.kg P_key.kF P_key.kG.
Proof.
  intros A F. destruct forge_example as (EA & _ & E0 & EK). split; [exact EA|]. split; [|split; [exact E0|exact EK]].
  intros seen. unfold F. cbn [snd]. split.
  - constructor; [unfold byte; lia|]. apply Forall_app. split; [|apply Forall_forall; intros x Hx; apply repeat_spec in Hx; subst x; unfold byte; lia].
    clear -F. generalize (snd (hd ([], []) seen)). intros l0. apply Forall_forall. intros x Hx. assert (Hy : In x (map (fun b => b mod 256)%Z l0)). { revert Hx. generalize (map (fun b => b mod 256)%Z l0). intros l Hx. rewrite <- (firstn_skipn 1 l). apply in_or_app. right. rewrite <- (firstn_skipn 40 (skipn 1 l)). apply in_or_app. left. exact Hx. }
    apply in_map_iff in Hy. destruct Hy as (y & <- & _). unfold byte. apply Z.mod_pos_bound. reflexivity.
  - cbn [length]. rewrite app_length, repeat_length. assert (sig_bytes 9 = 666%nat) by reflexivity. lia.
Qed.
