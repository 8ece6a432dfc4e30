(** P_sigx.v -- consequences: round trip, uniqueness, malleability *)
From Verif Require Import Base Spec M_ff M_codec M_sig P_codec P_nttx P_sig P_comp P_decomp.
Open Scope Z_scope.

Lemma low7_length a : length (low7 a) = 7%nat.
Proof. reflexivity. Qed.
Lemma low7_mod a : low7 (a mod 128) = low7 a.
Proof.
  unfold low7. apply map_ext_in. intros j Hj. apply in_seq in Hj. change 128 with (2 ^ 7).
  apply Z.mod_pow2_bits_low. lia.
Qed.
Lemma bv_low7 a : bv (low7 a) = a mod 128.
Proof.
  rewrite <- low7_mod. pose proof (Z.mod_pos_bound a 128 ltac:(lia)) as H.
  assert (X : forall b, byte b -> (if b <? 128 then bv (low7 b) =? b else true) = true) by (apply byte_all; vm_compute; reflexivity).
  specialize (X (a mod 128)). unfold byte in X. rewrite (proj2 (Z.ltb_lt _ _)) in X by lia. apply Z.eqb_eq, X. lia.
Qed.
Lemma low7_bv l : length l = 7%nat -> low7 (bv l) = l.
Proof.
  intros H. do 7 (destruct l as [|? l]; [discriminate|]). destruct l; [|discriminate].
  repeat match goal with b : bool |- _ => destruct b end; vm_compute; reflexivity.
Qed.

Lemma enc_codeword s : Z.abs s <= 1023 -> codeword (enc s) s.
Proof.
  intros H. unfold enc.
  assert (K : (Z.to_nat (Z.abs s / 128) < 8)%nat).
  { assert (0 <= Z.abs s / 128 < 8); [|lia]. split; [apply Z.div_pos; lia|apply Z.div_lt_upper_bound; lia]. }
  assert (V : bv (low7 (Z.abs s)) + 128 * Z.of_nat (Z.to_nat (Z.abs s / 128)) = Z.abs s).
  { rewrite bv_low7, Z2Nat.id by (apply Z.div_pos; lia). pose proof (Z.div_mod (Z.abs s) 128 ltac:(lia)). lia. }
  assert (E : s = signed (s <? 0) (bv (low7 (Z.abs s)) + 128 * Z.of_nat (Z.to_nat (Z.abs s / 128)))).
  { rewrite V. unfold signed. destruct (Z.ltb_spec s 0); lia. }
  rewrite E at 4. apply cw_short; [apply low7_length|exact K|]. rewrite V. intros [H1 H2]. lia.
Qed.

Lemma codeword_bound w c : codeword w c -> Z.abs c <= 1023.
Proof.
  intros [sgn low k L Hk _ | sgn low m chunk b L Lc Ht _]; pose proof (bv_range low) as R; rewrite L in R;
  change (2 ^ Z.of_nat 7) with 128 in R; unfold signed; destruct sgn; lia.
Qed.

Lemma short_enc w c : short_codeword w c -> w = enc c.
Proof.
  intros [[sgn low k L Hk Hz | sgn low m chunk b L Lc Ht Hz] Hs].
  - pose proof (bv_range low) as R. rewrite L in R. change (2 ^ Z.of_nat 7) with 128 in R. unfold enc.
    assert (A : Z.abs (signed sgn (bv low + 128 * Z.of_nat k)) = bv low + 128 * Z.of_nat k) by (unfold signed; destruct sgn; lia).
    rewrite A. f_equal.
    + unfold signed. destruct sgn; symmetry; [apply Z.ltb_lt|apply Z.ltb_ge; lia].
      assert (bv low + 128 * Z.of_nat k <> 0) by (intros X; apply Hz; auto). lia.
    + f_equal; [|f_equal; f_equal].
      * rewrite <- low7_mod. replace (bv low + 128 * Z.of_nat k) with (bv low + Z.of_nat k * 128) by ring.
        rewrite Z.mod_add, low7_mod, low7_bv by (assumption || lia). reflexivity.
      * replace (bv low + 128 * Z.of_nat k) with (bv low + Z.of_nat k * 128) by ring.
        rewrite Z.div_add, Z.div_small by lia. lia.
  - exfalso. cbn [length] in Hs. rewrite !app_length, repeat_length, L, Lc in Hs. cbn [length] in Hs. lia.
Qed.

Lemma enc_short s : Z.abs s <= 1023 -> short_codeword (enc s) s.
Proof.
  intros H. split; [apply enc_codeword; exact H|]. pose proof (enc_length s) as E. unfold enc_len in E.
  assert (Z.abs s / 128 < 8) by (apply Z.div_lt_upper_bound; lia). lia.
Qed.

Lemma encs_words s : Forall (fun x => Z.abs x <= 1023) s -> Forall2 codeword (map enc s) s /\ concat (map enc s) = encs s.
Proof.
  intros H. split; [|unfold encs; symmetry; apply flat_map_concat_map].
  induction H; cbn [map]; constructor; [apply enc_codeword; assumption|assumption].
Qed.

Lemma sig_dims lg : falcon_lg lg -> (41 <= sig_bytes lg)%nat /\ sig_len lg = sig_bytes lg /\
  body_len lg = Z.of_nat (8 * (sig_bytes lg - 41)) /\ body_len lg <= 14 * 2 ^ Z.of_nat lg.
Proof. intros [-> | ->]; vm_compute; repeat split; try congruence; lia. Qed.

(** body of a signature buffer *)
Lemma body_of lg pre body x : length pre = 41%nat -> length body = (sig_bytes lg - 41)%nat ->
  body_bits lg ((pre ++ body) ++ x) = bits_of body.
Proof.
  intros Lp Lb. unfold body_bits. rewrite <- app_assoc, skipn_lead by exact Lp. rewrite firstn_lead by exact Lb. reflexivity.
Qed.

Lemma body_short lg mem : falcon_lg lg -> (sig_bytes lg <= length mem)%nat -> length (body_bits lg mem) = (8 * (sig_bytes lg - 41))%nat.
Proof. intros H L. unfold body_bits. rewrite bits_of_length, firstn_length, skipn_length. lia. Qed.

Lemma compress_true lg s sig e : falcon_lg lg -> length s = (2 ^ lg)%nat -> length sig = sig_bytes lg -> bytes sig ->
  compress_sig lg s sig = Ok (true, e) ->
  length e = sig_bytes lg /\ bytes e /\ firstn 41 e = firstn 41 sig /\ tot s < body_len lg /\
  forall x, body_bits lg (e ++ x) = encs s ++ repeat false (Z.to_nat (body_len lg - tot s)).
Proof.
  intros Hlg Ls Lsig Bs H. destruct (sig_dims lg Hlg) as (D1 & D2 & D3 & D4).
  destruct (compress_ok lg s sig Hlg Ls ltac:(lia)) as [H1 H2].
  destruct (Z_lt_ge_dec (14 * 2 ^ Z.of_nat lg) (tot s)) as [Gt|Le]; [rewrite H2 in H by exact Gt; discriminate|].
  destruct H1 as (body & E & B & L & K & _); [lia|]. rewrite E in H.
  assert (X : e = firstn 41 sig ++ body) by congruence. assert (T : (tot s <? body_len lg) = true) by congruence. subst e.
  apply Z.ltb_lt in T. rewrite D2 in L.
  assert (L41 : length (firstn 41 sig) = 41%nat) by (rewrite firstn_length; lia).
  split; [rewrite app_length; lia|]. split; [apply Forall_app; split; [|exact B]; rewrite <- (firstn_skipn 41 sig) in Bs; apply Forall_app in Bs; apply Bs|].
  split; [apply firstn_lead; exact L41|]. split; [exact T|].
  intros x. rewrite body_of by assumption. apply K. exact T.
Qed.

Lemma accepts_bound lg mem s : accepts lg mem s -> Forall (fun x => Z.abs x <= 1023) s.
Proof. intros (_ & ws & z & F & _). induction F; constructor; [eapply codeword_bound; eassumption|assumption]. Qed.

Lemma roundtrip lg s sig e x p0 : falcon_lg lg -> length s = (2 ^ lg)%nat -> length sig = sig_bytes lg -> bytes sig ->
  bytes x -> (2 <= length x)%nat -> length p0 = (2 ^ lg)%nat ->
  compress_sig lg s sig = Ok (true, e) ->
  (decompress_sig lg (e ++ x) p0 = Ok (true, s) <-> Forall (fun c => Z.abs c <= 1023) s).
Proof.
  intros Hlg Ls Lsig Bs Bx Lx Lp H. destruct (sig_dims lg Hlg) as (D1 & D2 & D3 & D4).
  destruct (compress_true lg s sig e Hlg Ls Lsig Bs H) as (Le & Be & _ & T & BB).
  destruct (decompress_iff lg (e ++ x) p0 Hlg) as (b & s' & E & _ & A1 & A2).
  { apply Forall_app. split; assumption. } { rewrite app_length. lia. } { exact Lp. }
  split.
  - intros H1. rewrite E in H1. injection H1 as -> ->. apply (accepts_bound lg (e ++ x)). apply A1. reflexivity.
  - intros H1. destruct (encs_words s H1) as [F C]. destruct (A2 s) as [-> ->]; [|exact E].
    split; [exact Ls|]. exists (map enc s), (Z.to_nat (body_len lg - tot s)). split; [exact F|]. split; [lia|]. rewrite C. apply BB.
Qed.

(** ** uniqueness without long runs *)
Lemma short_unique lg mem mem' s ws ws' z z' : falcon_lg lg -> length mem = sig_bytes lg -> length mem' = sig_bytes lg ->
  bytes mem -> bytes mem' -> firstn 41 mem = firstn 41 mem' ->
  Forall2 short_codeword ws s -> body_bits lg mem = concat ws ++ repeat false z ->
  Forall2 short_codeword ws' s -> body_bits lg mem' = concat ws' ++ repeat false z' -> mem = mem'.
Proof.
  intros Hlg L L' B B' E41 F E F' E'. destruct (sig_dims lg Hlg) as (D1 & D2 & D3 & D4).
  assert (W : forall ws s, Forall2 short_codeword ws s -> ws = map enc s).
  { intros ws0 s0 F0. induction F0; cbn [map]; f_equal; [apply short_enc; assumption|assumption]. }
  rewrite (W _ _ F) in E. rewrite (W _ _ F') in E'.
  pose proof (f_equal (@length _) E) as LE. rewrite body_short, app_length, repeat_length in LE by (assumption || lia).
  pose proof (f_equal (@length _) E') as LE'. rewrite body_short, app_length, repeat_length in LE' by (assumption || lia).
  assert (z = z') by lia. subst z'. rewrite <- E in E'. unfold body_bits in E'.
  rewrite !firstn_all2 in E' by (rewrite skipn_length; lia).
  rewrite <- (firstn_skipn 41 mem), <- (firstn_skipn 41 mem'). f_equal; [exact E41|]. symmetry. apply bits_of_inj; [| |exact E'].
  - rewrite <- (firstn_skipn 41 mem') in B'. apply Forall_app in B'. apply B'.
  - rewrite <- (firstn_skipn 41 mem) in B. apply Forall_app in B. apply B.
Qed.

(** ** a short coefficient has a second encoding *)
Definition long_form (s : Z) (b : bool) : list bool :=
  (s <? 0) :: low7 (Z.abs s) ++ repeat false (8 + 8 * 0) ++ (true :: repeat false 7) ++ [b].
Lemma long_form_codeword s b : Z.abs s <= 127 -> codeword (long_form s b) s.
Proof.
  intros H. unfold long_form. assert (V : bv (low7 (Z.abs s)) = Z.abs s) by (rewrite bv_low7; apply Z.mod_small; lia).
  assert (E : s = signed (s <? 0) (bv (low7 (Z.abs s)))) by (rewrite V; unfold signed; destruct (Z.ltb_spec s 0); lia).
  rewrite E at 3. apply cw_long; [apply low7_length|reflexivity|left; reflexivity|]. rewrite V. intros [H1 H2]. lia.
Qed.

Lemma make_sig lg pre ws s : falcon_lg lg -> length pre = 41%nat -> bytes pre ->
  length s = (2 ^ lg)%nat -> Forall2 codeword ws s -> Z.of_nat (length (concat ws)) < body_len lg ->
  exists body, length body = (sig_bytes lg - 41)%nat /\ bytes body /\
    bits_of body = concat ws ++ repeat false (Z.to_nat (body_len lg) - length (concat ws)).
Proof.
  intros Hlg Lp Bp Ls F Lt. destruct (sig_dims lg Hlg) as (D1 & D2 & D3 & D4).
  destruct (bits_of_surj (sig_bytes lg - 41) (concat ws ++ repeat false (Z.to_nat (body_len lg) - length (concat ws)))) as (b & Hb & Lb & E).
  { rewrite app_length, repeat_length. lia. }
  exists b. auto.
Qed.

Lemma malleable lg pre a c r : falcon_lg lg -> length pre = 41%nat -> bytes pre ->
  length (a ++ c :: r) = (2 ^ lg)%nat -> Forall (fun x => Z.abs x <= 1023) (a ++ c :: r) -> Z.abs c <= 127 ->
  tot (a ++ c :: r) + 16 < body_len lg ->
  exists e e' e'', e <> e' /\ e <> e'' /\ e' <> e'' /\ Forall (fun m => length m = sig_bytes lg /\ bytes m /\ firstn 41 m = pre /\
     forall x p0, bytes x -> (2 <= length x)%nat -> length p0 = (2 ^ lg)%nat -> decompress_sig lg (m ++ x) p0 = Ok (true, a ++ c :: r)) [e; e'; e''].
Proof.
  intros Hlg Lp Bp Ls F Hc Ht. destruct (sig_dims lg Hlg) as (D1 & D2 & D3 & D4). set (s := a ++ c :: r) in *.
  pose proof (encs_length s) as EL.
  assert (Fa : Forall (fun x => Z.abs x <= 1023) a /\ Forall (fun x => Z.abs x <= 1023) r).
  { unfold s in F. apply Forall_app in F. destruct F as [F1 F2]. apply Forall_cons_iff in F2. split; [exact F1|apply F2]. }
  destruct Fa as [Fa Fr].
  assert (G : forall w, codeword w c -> exists m, length m = sig_bytes lg /\ bytes m /\ firstn 41 m = pre /\
     Forall2 codeword (map enc a ++ w :: map enc r) s).
  { intros w Hw. exists (pre ++ repeat 0 (sig_bytes lg - 41)). split; [rewrite app_length, repeat_length; lia|].
    split; [apply Forall_app; split; [exact Bp|apply Forall_rep; unfold byte; lia]|]. split; [apply firstn_lead; exact Lp|].
    unfold s. apply Forall2_app; [apply encs_words; exact Fa|]. constructor; [exact Hw|]. apply encs_words; exact Fr. }
  assert (H : forall w, codeword w c -> Z.of_nat (length w) <= enc_len c + 16 ->
     exists m, (length m = sig_bytes lg /\ bytes m /\ firstn 41 m = pre /\
       forall x p0, bytes x -> (2 <= length x)%nat -> length p0 = (2 ^ lg)%nat -> decompress_sig lg (m ++ x) p0 = Ok (true, s)) /\
       body_bits lg m = concat (map enc a ++ w :: map enc r) ++ repeat false (Z.to_nat (body_len lg) - length (concat (map enc a ++ w :: map enc r)))).
  { intros w Hw Lw. destruct (G w Hw) as (_ & _ & _ & _ & F2).
    assert (LC : Z.of_nat (length (concat (map enc a ++ w :: map enc r))) < body_len lg).
    { rewrite concat_app. cbn [concat]. rewrite !app_length.
      unfold s, encs in EL. rewrite flat_map_app in EL. cbn [flat_map] in EL. rewrite !flat_map_concat_map, !app_length in EL.
      pose proof (enc_length c). fold s in EL. lia. }
    destruct (make_sig lg pre _ s Hlg Lp Bp Ls F2 LC) as (body & Lb & Bb & Eb).
    exists (pre ++ body). split; [|rewrite <- (app_nil_r (pre ++ body)), body_of by assumption; exact Eb].
    split; [rewrite app_length; lia|]. split; [apply Forall_app; split; assumption|]. split; [apply firstn_lead; exact Lp|].
    intros x p0 Bx Lx Lp0. destruct (decompress_iff lg ((pre ++ body) ++ x) p0 Hlg) as (b & s' & E & _ & _ & A2).
    { apply Forall_app. split; [apply Forall_app; split; assumption|exact Bx]. } { rewrite !app_length. lia. } { exact Lp0. }
    destruct (A2 s) as [-> ->]; [|exact E]. split; [exact Ls|]. eexists _, _. split; [exact F2|]. split; [|rewrite body_of by assumption; exact Eb]. lia. }
  assert (Q : Z.abs c / 128 = 0) by (apply Z.div_small; lia).
  pose proof (enc_length c) as LC1. assert (EC : enc_len c = 9) by (unfold enc_len; rewrite Q; reflexivity).
  destruct (H (enc c)) as (e & He & Ee); [apply enc_codeword; lia|lia|].
  destruct (H (long_form c false)) as (e' & He' & Ee'); [apply long_form_codeword; exact Hc|rewrite EC; simpl; lia|].
  destruct (H (long_form c true)) as (e'' & He'' & Ee''); [apply long_form_codeword; exact Hc|rewrite EC; simpl; lia|].
  assert (EF : enc c = ((c <? 0) :: low7 (Z.abs c)) ++ [true]) by (unfold enc; rewrite Q; reflexivity).
  set (P := concat (map enc a) ++ (c <? 0) :: low7 (Z.abs c)). set (P2 := P ++ repeat false 8 ++ true :: repeat false 7).
  assert (X1 : exists X, body_bits lg e = P ++ true :: X).
  { eexists. rewrite Ee, concat_app. cbn [concat]. rewrite EF. unfold P. rewrite <- !app_assoc. cbn [app]. reflexivity. }
  assert (X2 : exists X, body_bits lg e' = P2 ++ false :: X).
  { eexists. rewrite Ee', concat_app. cbn [concat]. unfold P2, P, long_form. rewrite <- !app_assoc. cbn [app]. rewrite <- !app_assoc. reflexivity. }
  assert (X3 : exists X, body_bits lg e'' = P2 ++ true :: X).
  { eexists. rewrite Ee'', concat_app. cbn [concat]. unfold P2, P, long_form. rewrite <- !app_assoc. cbn [app]. rewrite <- !app_assoc. reflexivity. }
  destruct X1 as [x1 X1], X2 as [x2 X2], X3 as [x3 X3].
  assert (D : forall (A : list bool) b b' x y, A ++ b :: x = A ++ b' :: y -> b = b').
  { intros A b b' x y X. apply app_inv_head in X. congruence. }
  exists e, e', e''. split; [|split; [|split; [|repeat (apply Forall_cons; [assumption|]); apply Forall_nil]]]; intros X.
  - rewrite X, X2 in X1. unfold P2 in X1. rewrite <- app_assoc in X1. apply D in X1. discriminate.
  - rewrite X, X3 in X1. unfold P2 in X1. rewrite <- app_assoc in X1. apply D in X1. discriminate.
  - rewrite X, X3 in X2. apply D in X2. discriminate.
Qed.

(** ** compress on short vectors *)
Lemma compress_no_oob lg s sig : falcon_lg lg -> length s = (2 ^ lg)%nat -> length sig = sig_bytes lg ->
  sqnorm s <= beta2 lg -> exists b e, compress_sig lg s sig = Ok (b, e) /\ length e = sig_bytes lg.
Proof.
  intros Hlg Ls Lsig Hn. destruct (sig_dims lg Hlg) as (D1 & D2 & D3 & D4).
  destruct (compress_ok lg s sig Hlg Ls ltac:(lia)) as [H1 _].
  destruct H1 as (body & E & _ & L & _).
  - pose proof (tot_norm s 256 ltac:(lia)) as T. rewrite Ls in T. unfold beta2 in Hn.
    destruct Hlg as [-> | ->]; cbn [Nat.eqb] in Hn; change (Z.of_nat (2 ^ 9)) with 512 in T; change (Z.of_nat (2 ^ 10)) with 1024 in T;
    change (2 ^ Z.of_nat 9) with 512; change (2 ^ Z.of_nat 10) with 1024; lia.
  - eexists _, _. split; [exact E|]. rewrite app_length, firstn_length. lia.
Qed.

Lemma tot_repeat x n : tot (repeat x n) = Z.of_nat n * enc_len x.
Proof. unfold tot. induction n as [|n IH]; [reflexivity|]. cbn [repeat fold_right]. rewrite IH. lia. Qed.

Lemma compress_oob lg sig : falcon_lg lg -> length sig = sig_bytes lg ->
  exists s, length s = (2 ^ lg)%nat /\ Forall (fun x => Z.abs x <= 768) s /\ compress_sig lg s sig = UB.
Proof.
  intros Hlg Lsig. destruct (sig_dims lg Hlg) as (D1 & D2 & D3 & D4). exists (repeat 768 (2 ^ lg)).
  split; [apply repeat_length|]. split; [apply Forall_rep; simpl; lia|].
  destruct (compress_ok lg (repeat 768 (2 ^ lg)) sig Hlg (repeat_length _ _) ltac:(lia)) as [_ H2]. apply H2. rewrite tot_repeat.
  destruct Hlg as [-> | ->]; vm_compute; reflexivity.
Qed.

(** ** decode_sig *)
Lemma decode_sig_ok lg mem salt0 p0 : falcon_lg lg -> bytes mem -> (sig_bytes lg + 2 <= length mem)%nat ->
  length salt0 = 40%nat -> length p0 = (2 ^ lg)%nat ->
  exists b salt s, decode_sig lg mem salt0 p0 = Ok (b, salt, s) /\ length s = (2 ^ lg)%nat /\ length salt = 40%nat /\
    (b = true -> nth 0 mem 0 = 48 + Z.of_nat lg /\ salt = firstn 40 (skipn 1 mem) /\ accepts lg mem s) /\
    (forall s', nth 0 mem 0 = 48 + Z.of_nat lg -> accepts lg mem s' -> b = true /\ s = s').
Proof.
  intros Hlg Hb L Ls Lp. destruct (sig_dims lg Hlg) as (D1 & D2 & D3 & D4). unfold decode_sig.
  rewrite (rd_Ok mem 0 0) by lia. cbn [bind].
  assert (HD : 48 .| Z.of_nat lg = 48 + Z.of_nat lg) by (destruct Hlg as [-> | ->]; reflexivity). rewrite HD.
  destruct (Z.eqb_spec (nth 0 mem 0) (48 + Z.of_nat lg)) as [E|NE]; cbn [negb].
  - destruct (decompress_iff lg mem p0 Hlg Hb ltac:(lia) Lp) as (b & s & -> & A0 & A1 & A2). cbn [bind].
    destruct b; cbn [negb].
    + rewrite rds_ok by lia. cbn [bind]. rewrite wrs_all by (rewrite slice_length by lia; exact Ls). cbn [bind].
      exists true, (slice mem 1 40), s. split; [reflexivity|]. split; [apply A1; reflexivity|]. split; [apply slice_length; lia|].
      split; [|intros s' _ A; apply A2; exact A]. intros _. split; [exact E|]. split; [reflexivity|]. apply A1. reflexivity.
    + exists false, salt0, s. split; [reflexivity|]. rewrite (A0 eq_refl), repeat_length. split; [reflexivity|]. split; [exact Ls|].
      split; [discriminate|]. intros s' _ A. destruct (A2 s' A) as [X _]. discriminate.
  - exists false, salt0, p0. split; [reflexivity|]. split; [exact Lp|]. split; [exact Ls|]. split; [discriminate|]. intros s' X. contradiction.
Qed.

(** ** reading past the end *)
Lemma honest_oob lg s sig e p0 : falcon_lg lg -> length s = (2 ^ lg)%nat -> length sig = sig_bytes lg -> bytes sig ->
  Forall (fun c => Z.abs c <= 1023) s -> compress_sig lg s sig = Ok (true, e) -> length p0 = (2 ^ lg)%nat ->
  8 <= body_len lg - tot s ->
  ((body_len lg - tot s) mod 8 = 0 -> decompress_sig lg e p0 = UB) /\
  ((body_len lg - tot s) mod 8 <> 0 -> decompress_sig lg e p0 = Ok (true, s)).
Proof.
  intros Hlg Ls Lsig Bs F H Lp Hz. destruct (sig_dims lg Hlg) as (D1 & D2 & D3 & D4).
  destruct (compress_true lg s sig e Hlg Ls Lsig Bs H) as (Le & Be & _ & T & BB). specialize (BB []). rewrite app_nil_r in BB.
  destruct (encs_words s F) as [F2 C]. rewrite <- C in BB.
  split; intros M.
  - apply (exact_ub lg e p0 s Hlg Be ltac:(lia) Lp Ls (map enc s) (Z.to_nat (body_len lg - tot s)) F2); [lia|lia|exact BB].
  - apply (exact_ok lg e p0 s Hlg Be ltac:(lia) Lp Ls (map enc s) (Z.to_nat (body_len lg - tot s)) F2); [lia|lia|exact BB].
Qed.

Lemma zero_compress lg sig : falcon_lg lg -> length sig = sig_bytes lg -> bytes sig ->
  exists e, compress_sig lg (repeat 0 (2 ^ lg)) sig = Ok (true, e) /\ 8 <= body_len lg - tot (repeat 0 (2 ^ lg)) /\
    (body_len lg - tot (repeat 0 (2 ^ lg))) mod 8 = 0.
Proof.
  intros Hlg L B. destruct (sig_dims lg Hlg) as (D1 & D2 & D3 & D4).
  destruct (compress_ok lg (repeat 0 (2 ^ lg)) sig Hlg (repeat_length _ _) ltac:(lia)) as [H1 _].
  assert (T : tot (repeat 0 (2 ^ lg)) = 9 * 2 ^ Z.of_nat lg).
  { rewrite tot_repeat. destruct Hlg as [-> | ->]; reflexivity. }
  rewrite T in *.
  destruct H1 as (body & E & _); [destruct Hlg as [-> | ->]; vm_compute; congruence|].
  replace (9 * 2 ^ Z.of_nat lg <? body_len lg) with true in E by (destruct Hlg as [-> | ->]; reflexivity).
  exists (firstn 41 sig ++ body). split; [exact E|].
  destruct Hlg as [-> | ->]; vm_compute; split; congruence.
Qed.

Lemma big_coeff lg sig x p0 : falcon_lg lg -> length sig = sig_bytes lg -> bytes sig -> bytes x -> (2 <= length x)%nat -> length p0 = (2 ^ lg)%nat ->
  exists s e, length s = (2 ^ lg)%nat /\ sqnorm s <= beta2 lg /\ compress_sig lg s sig = Ok (true, e) /\ decompress_sig lg (e ++ x) p0 <> Ok (true, s).
Proof.
  intros Hlg L B Bx Lx Lp. destruct (sig_dims lg Hlg) as (D1 & D2 & D3 & D4).
  set (s := 1024 :: repeat 0 (2 ^ lg - 1)).
  assert (Ls : length s = (2 ^ lg)%nat) by (unfold s; cbn [length]; rewrite repeat_length; destruct Hlg as [-> | ->]; reflexivity).
  destruct (compress_ok lg s sig Hlg Ls ltac:(lia)) as [H1 _].
  assert (T : tot s = 9 * 2 ^ Z.of_nat lg + 8).
  { unfold s. change (tot (1024 :: repeat 0 (2 ^ lg - 1))) with (enc_len 1024 + tot (repeat 0 (2 ^ lg - 1))). rewrite tot_repeat.
    destruct Hlg as [-> | ->]; reflexivity. }
  rewrite T in *.
  destruct H1 as (body & E & _); [destruct Hlg as [-> | ->]; vm_compute; congruence|].
  replace (9 * 2 ^ Z.of_nat lg + 8 <? body_len lg) with true in E by (destruct Hlg as [-> | ->]; reflexivity).
  exists s, (firstn 41 sig ++ body). split; [exact Ls|]. split.
  - assert (N0 : forall n, sqnorm (repeat 0 n) = 0) by (induction n; [reflexivity|assumption]).
    unfold s, sqnorm. cbn [fold_right]. fold (sqnorm (repeat 0 (2 ^ lg - 1))). rewrite N0. destruct Hlg as [-> | ->]; vm_compute; congruence.
  - split; [exact E|]. intros D. apply (roundtrip lg s sig _ x p0 Hlg Ls L B Bx Lx Lp E) in D.
    unfold s in D. apply Forall_cons_iff in D. destruct D as [D _]. simpl in D. lia.
Qed.
