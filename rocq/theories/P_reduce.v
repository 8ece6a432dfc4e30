(** P_reduce.v -- from forgeries to short vectors of the public lattice. *)
From Verif Require Import Base Spec SpecT SpecU SpecV SpecX SpecR SpecS SpecG SpecJ SpecH SpecM M_ff M_codec M_ntt M_sig M_verify M_float M_exact M_samp M_fft M_ntru M_tree P_prob P_gsum P_jprob P_jgauss P_jkey P_jcoset P_kubx P_widek P_sim P_fitm P_fits P_vers P_simsig P_loopk P_adapt P_rom P_solve P_guess P_coll P_play.
From Verif Require P_genlaw P_key P_live P_verifyx P_decomp P_hash P_nttx P_keys P_ff.
From Coq Require Import Lra.
Open Scope R_scope.

Section Reduce.
Variables (lg : nat) (Hlg : falcon_lg lg) (h : list Z) (A : view -> request) (F : view -> nat * list Z) (k : nat).
Hypothesis Hk : (512 <= k)%nat.
Hypothesis HF : forall seen, bytes (snd (F seen)) /\ (sig_bytes lg + 2 <= length (snd (F seen)))%nat.
Hypothesis HA : forall seen, match A seen with ask_hash _ _ => True | ask_sign _ sig => bytes sig /\ (sig_bytes lg + 2 <= length sig)%nat end.
Notation z0 := (repeat 0%Z (2 ^ lg)).

(** what a forgery looks like from outside: a place and the vector of the signature *)
Definition target (seen : view) : option (nat * vec) :=
  let '(j, sig) := F seen in
  match nth_error seen j with
  | Some (x :: c, []) => match decompress_sig lg sig z0 with
                         | Ok (true, s2) => if (vnorm lg (x :: c) s2 h <=? beta2 lg)%Z then Some (j, signed_vector lg h (x :: c) s2) else None
                         | _ => None
                         end
  | _ => None
  end.
Definition aims (seen : view) : bool := match target seen with Some _ => true | None => false end.
Lemma target_place seen j s : target seen = Some (j, s) -> exists x c, nth_error seen j = Some (x :: c, []).
Proof.
  unfold target. destruct (F seen) as [j' sig]. destruct (nth_error seen j') as [[[|x c] [|y e]]|] eqn:En; try discriminate. destruct (decompress_sig lg sig z0) as [[[|] s2]| |]; try discriminate. destruct (Z.leb _ _); [|discriminate].
  intros E. injection E as <- _. exists x, c. exact En.
Qed.

(** ** the real experiment *)
Definition tabled (t : list (list Z * list Z)) (seen : view) : Prop := Forall (fun e => bytes (snd e)) t /\
  forall j x c salt msg, nth_error seen j = Some (x :: c, []) -> A (skipn (S j) seen) = ask_hash salt msg -> exists u, lookup t (salt ++ msg) = Some u /\ hashb lg k u = Ok (x :: c).
Lemma lookup_bytes (t : list (list Z * list Z)) a u : Forall (fun e => bytes (snd e)) t -> lookup t a = Some u -> bytes u.
Proof. induction 1 as [|[b v] t Hv Ht IH]; [discriminate|]. cbn [lookup]. destruct (list_eq_dec Z.eq_dec a b); [intros E; injection E as <-; exact Hv|exact IH]. Qed.
Lemma forged_aims pk t seen : bytes pk -> length pk = pkey_len lg -> decode_pkey lg pk z0 = Ok (true, h) -> tabled t seen -> forged lg pk k A F t seen = true -> aims seen = true.
Proof.
  intros Bp Lp Hp [Bt Ht] H. unfold forged in H. assert (HF' := HF seen). unfold aims, target. destruct (F seen) as [j sig]. cbn [snd] in HF'. destruct HF' as [Bs Ls]. destruct (nth_error seen j) as [[[|x c] [|y e]]|] eqn:En; try discriminate.
  destruct (A (skipn (S j) seen)) as [salt msg|] eqn:EA; [|discriminate]. destruct (list_eq_dec Z.eq_dec salt (firstn 40 (skipn 1 sig))) as [Es|]; [|discriminate]. cbn [andb] in H.
  destruct (verify Strict k _ lg pk msg sig) as [[|]| |] eqn:EV; try discriminate. destruct (Ht j x c salt msg En EA) as (u & Hu & Hh). assert (Bu := lookup_bytes t _ u Bt Hu).
  assert (Hx : forall a, byte_stream (stream (known t a []))). { intros a. apply P_hash.stream_bytes. unfold known. destruct (lookup t a) eqn:E; [exact (lookup_bytes t a _ Bt E)|constructor]. }
  destruct (proj1 (P_verifyx.verify_true_iff (fun a => stream (known t a [])) lg pk msg sig Hlg Hx Bp Lp Bs Ls) (ex_intro _ k EV)) as (h' & s2 & c' & Eh & _ & Ac & Hc & Nc). assert (h' = h) by congruence. subst h'.
  rewrite <- Es in Hc. unfold known in Hc. rewrite Hu in Hc. unfold hashb in Hh. apply P_verifyx.hash_hashed in Hh; [|apply P_hash.stream_bytes; exact Bu|apply repeat_length]. assert (Ec := P_verifyx.hashed_unique _ _ _ _ Hc Hh). subst c'.
  destruct (P_decomp.decompress_iff lg sig z0 Hlg Bs Ls (repeat_length _ _)) as (b & s & E1 & _ & _ & A2). destruct (A2 s2 Ac) as [-> ->]. rewrite E1. rewrite (proj2 (Z.leb_le _ _)) by exact Nc. reflexivity.
Qed.
Section Real.
Variables (skey : list Z) (m n : nat).
Hypothesis Hn : (1 <= m)%nat.
Hypothesis Hn' : (36 * k * 2 ^ lg * m <= n)%nat.
Notation pl T := (play lg skey k m n A T).
Notation LL := (40 + (136 * k + n))%nat.
Lemma play_mono (T T' : list (list Z * list Z) -> view -> bool) : (forall t seen, tabled t seen -> T t seen = true -> T' t seen = true) ->
  forall r t seen v, length v = (r * LL)%nat -> bytes v -> tabled t seen -> pl T r t seen v = true -> pl T' r t seen v = true.
Proof.
  intros HT. induction r as [|r IH]; intros t seen v Lv Bv HI H; [exact (HT t seen HI H)|].
  destruct (P_rom.cut lg k z0 (repeat_length _ _) m n Hk Hn Hn' r v Lv) as (sa & u & w & v' & -> & La & Lu & Lw & Lv').
  unfold bytes in Bv. apply Forall_app in Bv. destruct Bv as [Ba Bv]. apply Forall_app in Bv. destruct Bv as [Bu Bv]. apply Forall_app in Bv. destruct Bv as [Bw Bv].
  assert (PS := play_step lg A k z0 (repeat_length _ _) skey m n Hk Hn Hn' HA). rewrite PS in H by assumption. rewrite PS by assumption. clear PS. destruct HI as [Bt Ht]. destruct (A seen) as [salt msg|msg sig] eqn:EA.
  - destruct (lookup t (salt ++ msg)) as [u0|] eqn:Et.
    + apply IH; [exact Lv'|exact Bv| |exact H]. split; [exact Bt|]. intros [|j] x c salt' msg' N EA'; [discriminate N|]. exact (Ht j x c salt' msg' N EA').
    + destruct (hashb lg k u) as [c0| |] eqn:EU; [|discriminate|discriminate]. apply IH; [exact Lv'|exact Bv| |exact H]. split; [constructor; [exact Bu|exact Bt]|]. intros [|j] x c salt' msg' N EA'.
      * cbn [skipn] in EA'. cbn [nth_error] in N. rewrite EA in EA'. injection EA' as <- <-. injection N as N. subst c0. exists u. cbn [lookup]. destruct (list_eq_dec Z.eq_dec (salt ++ msg) (salt ++ msg)) as [_|C]; [|contradict C; reflexivity]. split; [reflexivity|exact EU].
      * destruct (Ht j x c salt' msg' N EA') as (u1 & H1 & H2). exists u1. split; [|exact H2]. cbn [lookup]. destruct (list_eq_dec Z.eq_dec (salt' ++ msg') (salt ++ msg)) as [E|_]; [|exact H1]. rewrite E, Et in H1. discriminate H1.
  - unfold sees in *. destruct (hashb lg k (known t (sa ++ msg) u)) as [c0| |]; [|discriminate|discriminate]. destruct (sign _ _ _ _ _ _ _ _ _ _) as [[[|] e]| |]; try discriminate. apply IH; [exact Lv'|exact Bv| |exact H]. split.
    + constructor; [|exact Bt]. cbn [snd]. unfold known. destruct (lookup t (sa ++ msg)) eqn:Et; [exact (lookup_bytes t _ _ Bt Et)|exact Bu].
    + intros [|j] x c salt' msg' N EA'; [cbn [skipn] in EA'; rewrite EA in EA'; discriminate EA'|]. destruct (Ht j x c salt' msg' N EA') as (u1 & H1 & H2). exists u1. split; [|exact H2]. cbn [lookup].
      destruct (list_eq_dec Z.eq_dec (salt' ++ msg') (sa ++ msg)) as [E|_]; [|exact H1]. unfold known. rewrite <- E, H1. reflexivity.
Qed.
End Real.

(** ** the experiment without the key *)
Notation found_short := (fun seen drawn => short_vector lg h (difference lg h F seen drawn)).
Lemma Forall2_nth {X Y} (P : X -> Y -> Prop) l l' : Forall2 P l l' -> forall j x, nth_error l j = Some x -> exists y, nth_error l' j = Some y /\ P x y.
Proof. induction 1 as [|a b l l' Hab HL IH]; intros [|j] x N; try discriminate; [injection N as <-; exists b; split; [reflexivity|exact Hab]|exact (IH j x N)]. Qed.
Lemma aims_cases r seen drawn : Forall2 (step_entry lg h) seen drawn -> length seen = r -> aims seen = true ->
  found_short seen drawn = true \/ (guess target r seen drawn || bigd lg seen drawn)%bool = true.
Proof.
  intros HI Lr H. unfold aims in H. destruct (target seen) as [[j s']|] eqn:ET; [|discriminate]. unfold guess. rewrite ET. assert (E0 := ET). unfold target in ET. assert (HF' := HF seen). unfold difference. destruct (F seen) as [j' sig]. cbn [snd] in HF'. destruct HF' as [Bs Ls].
  destruct (nth_error seen j') as [[[|x c] [|y e]]|] eqn:En; try discriminate. destruct (P_decomp.decompress_iff lg sig z0 Hlg Bs Ls (repeat_length _ _)) as (b & s2 & E1 & _ & A1 & _). rewrite E1 in *. destruct b; [|discriminate].
  destruct (Z.leb_spec (vnorm lg (x :: c) s2 h) (beta2 lg)) as [Nv|]; [|discriminate]. injection ET as -> <-. destruct (Forall2_nth _ _ _ HI j _ En) as (s & Es & [[Q _]|[[P1 P2] Q]]); [discriminate Q|]. cbn [fst] in Q.
  rewrite (nth_error_nth _ _ _ En), (nth_error_nth _ _ _ Es). cbn [fst]. assert (Lj : (j < r)%nat) by (rewrite <- Lr; apply nth_error_Some; rewrite En; discriminate). apply Nat.ltb_lt in Lj. rewrite Lj. cbn [andb].
  destruct (pair_dec (signed_vector lg h (x :: c) s2) s) as [|Ns]; [right; reflexivity|]. cbn [orb].
  destruct (shortb lg s) eqn:Sh; [left|right; unfold bigd; apply existsb_exists; exists s; split; [exact (nth_error_In _ _ Es)|rewrite Sh; reflexivity]].
  unfold shortb in Sh. apply Z.leb_le in Sh. destruct (point_facts lg h s) as [Lp Cp]. rewrite <- Q in Lp, Cp. destruct (A1 eq_refl) as [L2 _]. apply short_diff.
  - apply signed_length.
  - exact L2.
  - exact P1.
  - exact P2.
  - rewrite signed_point by assumption. exact Q.
  - exact Ns.
  - rewrite signed_norm. exact Nv.
  - exact Sh.
Qed.
Variables (WT : R) (WT0 : 0 < WT) (TWT : total (pairN lg) (fun s => wts lg s) WT).
Hypothesis Htau : forall L, NoDup L -> Forall (fun s => pairN lg s /\ shortb lg s = false) L -> lsum (fun s => wts lg s) L <= (981 / 1000) ^ 2 ^ lg * WT.
Lemma aims_le r x x1 : solver lg h WT A (fun sn _ => aims sn) r [] [] [] x -> solver lg h WT A found_short r [] [] [] x1 -> x <= x1 + INR r * (2 * slack lg k).
Proof.
  intros H H1. destruct (solver_sig lg h WT WT0 TWT A (fun sn dn => guess target r sn dn || bigd lg sn dn)%bool r [] [] []) as (x2 & H2 & _).
  destruct (solver_sig lg h WT WT0 TWT A (guess target r) r [] [] []) as (x3 & H3 & _). destruct (solver_sig lg h WT WT0 TWT A (bigd lg) r [] [] []) as (x4 & H4 & _).
  assert (U1 : x <= x1 + x2).
  { refine (union_le lg h WT WT0 A (fun sn _ => aims sn) found_short (fun sn dn => guess target r sn dn || bigd lg sn dn)%bool (fun i sn dn => Forall2 (step_entry lg h) sn dn /\ (length sn + i)%nat = r) _ _ r [] [] [] x x1 x2 _ H H1 H2).
    - intros i sn dn e s [I1 I2] HE. split; [constructor; [exact HE|exact I1]|]. cbn [length]. lia.
    - intros sn dn [I1 I2] Q. apply (aims_cases r); [exact I1|lia|exact Q].
    - split; [constructor|]. reflexivity. }
  assert (U2 : x2 <= x3 + x4).
  { refine (union_le lg h WT WT0 A (fun sn dn => guess target r sn dn || bigd lg sn dn)%bool (guess target r) (bigd lg) (fun _ _ _ => True) (fun _ _ _ _ _ _ _ => I) _ r [] [] [] x2 x3 x4 I H2 H3 H4). intros sn dn _ Q. apply Bool.orb_true_iff. exact Q. }
  assert (U3 := guess_le lg h WT WT0 TWT A _ Htau target target_place r [] [] [] x3 H3). assert (G := weight_big lg Hlg WT TWT). assert (T := tau_slack lg k).
  assert (G2 : (/ 2) ^ 2 ^ lg <= (981 / 1000) ^ 2 ^ lg) by (apply pow_incr; lra).
  assert (U4 := big_le lg h WT WT0 TWT A ((981 / 1000) ^ 2 ^ lg) ltac:(apply pow_le; lra) Htau ltac:(destruct Hlg as [-> | ->]; reflexivity) r [] [] [] x4 eq_refl H4).
  assert (r0 := pos_INR r). set (a := 12289 ^ 2 ^ lg / WT) in *. set (b := (981 / 1000) ^ 2 ^ lg) in *. set (c := (/ 2) ^ 2 ^ lg) in *. clearbody a b c.
  assert (INR r * a <= INR r * slack lg k) by (apply Rmult_le_compat_l; lra). assert (INR r * b <= INR r * slack lg k) by (apply Rmult_le_compat_l; lra). lra.
Qed.
End Reduce.

Theorem forger_solves lg : falcon_lg lg ->
  exists W, 0 < W /\ total (fun s => length (fst s) = (2 ^ lg)%nat /\ length (snd s) = (2 ^ lg)%nat) (fun s => exp (- (IZR (sqnorm (fst s) + sqnorm (snd s)) / (2 * (sigma_value RF lg * sigma_value RF lg))))) W /\
  forall h (A : view -> request) (F : view -> nat * list Z) k r, (512 <= k)%nat -> (forall seen, match A seen with ask_hash _ _ => True | ask_sign _ sig => bytes sig /\ (sig_bytes lg + 2 <= length sig)%nat end) ->
  (forall seen, bytes (snd (F seen)) /\ (sig_bytes lg + 2 <= length (snd (F seen)))%nat) ->
  exists x, (forall x', solver lg h W A (fun seen drawn => short_vector lg h (difference lg h F seen drawn)) r [] [] [] x' <-> x' = x) /\ 0 <= x <= 1 /\
  forall f g F_ G_ h0, sound_key lg f g F_ G_ -> length h0 = (2 ^ lg)%nat -> compute_public_key lg f g h0 = Ok h ->
  forall pk, bytes pk -> length pk = pkey_len lg -> decode_pkey lg pk (repeat 0%Z (2 ^ lg)) = Ok (true, h) ->
  forall skey, decode_skey lg skey (repeat 0%Z (2 ^ lg)) (repeat 0%Z (2 ^ lg)) (repeat 0%Z (2 ^ lg)) = Ok (true, (f, g, F_)) ->
  forall m n, (1 <= m)%nat -> (36 * k * 2 ^ lg * m <= n)%nat ->
  prob (r * (40 + (136 * k + n))) (play lg skey k m n A (forged lg pk k A F) r [] []) <= x + INR r * ((if Nat.eqb lg 9 then 4 / 10000 else 52 / 1000) + INR r / 256 ^ 40).
Proof.
  intros Hlg. destruct (pair_total lg Hlg) as (W & W0 & TW). exists W. split; [exact W0|]. split; [exact TW|]. intros h A F k r Hk HA HF.
  destruct (solver_sig lg h W W0 TW A (fun seen drawn => short_vector lg h (difference lg h F seen drawn)) r [] [] []) as (x & Hx & Bx). exists x. split; [|split; [exact Bx|]].
  - intros x'. split; [intros H; exact (solver_unique lg h W A _ r [] [] [] x' x H Hx)|intros ->; exact Hx].
  - intros f g F_ G_ h0 HS Lh HK pk Bp Lp Hp skey HD m n Hm Hn. destruct (solver_sig lg h W W0 TW A (fun sn _ => aims lg h F sn) r [] [] []) as (xa & Ha & _).
    assert (N := play_near lg Hlg h W W0 TW A k f g F_ G_ h0 HS Lh HK skey HD m n Hk Hm Hn HA (aims lg h F) r [] [] [] xa Ha). change (length (@nil (list Z * list Z)) + r)%nat with r in N.
    assert (S1 := aims_le lg Hlg h A F k Hk HF HA W W0 TW (long_all lg Hlg f g F_ G_ h0 h HS Lh HK W TW) r xa x Ha Hx).
    assert (M : prob (r * (40 + (136 * k + n))) (play lg skey k m n A (forged lg pk k A F) r [] []) <= prob (r * (40 + (136 * k + n))) (play lg skey k m n A (fun _ => aims lg h F) r [] [])).
    { rewrite !prob_avg. apply avg_mono. intros v Lv Bv. destruct (play lg skey k m n A (forged lg pk k A F) r [] [] v) eqn:E; [|apply ind01].
      rewrite (play_mono lg A k Hk HA skey m n Hm Hn (forged lg pk k A F) (fun _ => aims lg h F) (fun t seen HT => forged_aims lg Hlg h A F k HF pk t seen Bp Lp Hp HT) r [] [] v Lv Bv); [apply Rle_refl| |exact E].
      split; [constructor|]. intros [|j] a c salt msg Q; discriminate Q. }
    assert (N' := Rle_trans _ _ _ (Rle_abs _) N). assert (SL := slack_small lg k Hlg Hk). assert (r0 := pos_INR r).
    assert (B4 : INR r * (4 * slack lg k) <= INR r * (if Nat.eqb lg 9 then 4 / 10000 else 52 / 1000)) by (apply Rmult_le_compat_l; [exact r0|]; destruct (Nat.eqb lg 9); lra).
    unfold Rdiv at 3. set (d := slack lg k) in *. set (e := / 256 ^ 40) in *. clearbody d e. rewrite Rmult_plus_distr_l. replace (INR r * (2 * d + INR r * e)) with (INR r * (2 * d) + INR r * (INR r * e)) in N' by ring. lra.
Qed.
Lemma forge_example : let A : view -> request := fun seen => if Nat.even (length seen) then ask_hash (repeat 3%Z 40) (concat (map snd seen)) else ask_sign (concat (map fst seen)) (repeat 0%Z 668) in
  let F : view -> nat * list Z := fun seen => (pred (length seen), 57%Z :: repeat 3%Z 40 ++ repeat 0%Z 627) in
  (forall seen, match A seen with ask_hash _ _ => True | ask_sign _ sig => bytes sig /\ (sig_bytes 9 + 2 <= length sig)%nat end) /\
  (forall seen, bytes (snd (F seen)) /\ (sig_bytes 9 + 2 <= length (snd (F seen)))%nat) /\ A [] = ask_hash (repeat 3%Z 40) [] /\
  exists h skey pk, compute_public_key 9 P_key.kf P_key.kg (repeat 0%Z 512) = Ok h /\ bytes pk /\ length pk = pkey_len 9 /\ decode_pkey 9 pk (repeat 0%Z 512) = Ok (true, h) /\
    decode_skey 9 skey (repeat 0%Z 512) (repeat 0%Z 512) (repeat 0%Z 512) = Ok (true, (P_key.kf, P_key.kg, P_key.kF)) /\ sound_key 9 P_key.kf P_key.kg P_key.kF P_key.kG.
Proof.
  intros A F. assert (RB : forall a n, byte a -> bytes (repeat a n)) by (intros a n Ha; apply Forall_forall; intros x Hx; apply repeat_spec in Hx; subst x; exact Ha).
  assert (b0 : byte 0) by (unfold byte; lia). assert (b3 : byte 3) by (unfold byte; lia).
  split; [intros seen; unfold A; destruct (Nat.even (length seen)); [exact I|]; split; [apply RB, b0|]; rewrite repeat_length; apply Nat.leb_le; reflexivity|].
  split; [intros seen; unfold F; cbn [snd]; split; [constructor; [unfold byte; lia|]; apply Forall_app; split; apply RB; assumption|]; apply Nat.leb_le; reflexivity|]. split; [reflexivity|].
  destruct k_checks as (h & skey & pk & HK & _ & HD & HS & _). assert (K := HS). destruct K as (Lf & Lg & _ & _ & _ & _ & _ & _ & _ & Sf & Sg & HI).
  destruct (P_nttx.public_key_spec 9 P_key.kf P_key.kg (repeat 0%Z 512) (or_introl eq_refl) Lf Lg (repeat_length _ _) Sf Sg HI) as (h' & E' & Lh' & Ch & _). assert (h' = h) by congruence. subst h'.
  destruct (P_keys.pk_round 9 h (repeat 0%Z (pkey_len 9)) (repeat 0%Z 512) (or_introl eq_refl) Lh' ltac:(eapply Forall_impl; [|exact Ch]; intros a; apply P_ff.canon_lt14) (repeat_length _ _) (repeat_length _ _)) as (pk' & _ & Lp & Bp & _ & Dp).
  exists h, skey, pk'. split; [exact HK|]. split; [exact Bp|]. split; [exact Lp|]. split; [exact Dp|]. split; [exact HD|exact HS].
Qed.
