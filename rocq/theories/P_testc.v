(** P_testc.v -- the end of the test of compressing signatures. *)
From Verif Require Import Base Spec M_ff M_codec M_sig P_sig P_nttx P_sigx P_decomp P_comp M_testc P_testd.
Open Scope Z_scope.

Lemma test_sigc_ok lg s2 sig x (dec : list Z) : falcon_lg lg -> length s2 = (2 ^ lg)%nat -> length sig = sig_bytes lg -> bytes sig -> bytes x -> (2 <= length x)%nat -> length dec = (2 ^ lg)%nat ->
  (body_len lg <= tot s2 <= 14 * 2 ^ Z.of_nat lg -> test_sig_compression lg s2 sig x dec = Ok None) /\
  (tot s2 < body_len lg -> exists b, test_sig_compression lg s2 sig x dec = Ok (Some b) /\ (b = true <-> Forall (fun c => Z.abs c <= 1023) s2)) /\
  (14 * 2 ^ Z.of_nat lg < tot s2 -> test_sig_compression lg s2 sig x dec = UB).
Proof.
  intros Hlg Ls Lg Bs Bx Lx Ld. destruct (sig_dims lg Hlg) as (D1 & D2 & D3 & D4).
  assert (BL : body_len lg <= 14 * 2 ^ Z.of_nat lg) by (destruct Hlg as [-> | ->]; vm_compute; discriminate).
  destruct (compress_ok lg s2 sig Hlg Ls ltac:(congruence)) as [C1 C2]. unfold test_sig_compression. split; [|split].
  - intros [T1 T2]. destruct (C1 T2) as (body & E & _). rewrite E. replace (tot s2 <? body_len lg) with false by lia. reflexivity.
  - intros T. destruct (C1 ltac:(lia)) as (body & E & _). replace (tot s2 <? body_len lg) with true in E by lia. set (e := firstn 41 sig ++ body) in *.
    destruct (compress_true lg _ sig e Hlg Ls Lg Bs E) as (Le & Be & _). assert (R := roundtrip lg s2 sig e x dec Hlg Ls Lg Bs Bx Lx Ld E).
    rewrite E. cbn [bind]. destruct (decompress_iff lg (e ++ x) dec Hlg) as (d & s & Ed & Z & A1 & _); [apply Forall_app; split; assumption|rewrite app_length, ?D2, Le; lia|exact Ld|].
    assert (Lds : length s = (2 ^ lg)%nat). { destruct d; [destruct (A1 eq_refl) as [L _]; exact L|rewrite (Z eq_refl); apply repeat_length]. }
    rewrite Ed. cbn [bind].
    destruct (all_from (2 ^ lg) 0 (fun i matches => a <- rd s2 i ;; b <- rd s i ;; Ok (matches && (a =? b))) (fun i => nth i s2 0 =? nth i s 0)) as (b & El & Hl).
    { intros i m Hi. rewrite (rd_Ok _ i 0) by lia. cbn [bind]. rewrite (rd_Ok _ i 0) by lia. reflexivity. }
    rewrite El. cbn [bind]. exists (d && b). split; [reflexivity|]. rewrite <- R, Ed, andb_true_iff, Hl. split.
    + intros [-> M]. do 2 f_equal. apply (nth_ext _ _ 0 0); [lia|]. intros i Hi. symmetry. apply Z.eqb_eq, M. lia.
    + intros Eq. injection Eq as -> ->. split; [reflexivity|]. intros i _. apply Z.eqb_refl.
  - intros T. rewrite (C2 T). reflexivity.
Qed.
Lemma test_sigc_fails lg sig x (dec : list Z) : falcon_lg lg -> length sig = sig_bytes lg -> bytes sig -> bytes x -> (2 <= length x)%nat -> length dec = (2 ^ lg)%nat ->
  exists s2, length s2 = (2 ^ lg)%nat /\ sqnorm s2 <= beta2 lg /\ test_sig_compression lg s2 sig x dec = Ok (Some false).
Proof.
  intros Hlg Lg Bs Bx Lx Ld. pose (s2 := 1024 :: repeat 0 (2 ^ lg - 1)).
  assert (Ls : length s2 = (2 ^ lg)%nat) by (destruct Hlg as [-> | ->]; reflexivity).
  assert (T : tot s2 < body_len lg) by (destruct Hlg as [-> | ->]; vm_compute; reflexivity).
  exists s2. split; [exact Ls|]. split; [destruct Hlg as [-> | ->]; vm_compute; discriminate|].
  destruct (test_sigc_ok lg s2 sig x dec Hlg Ls Lg Bs Bx Lx Ld) as (_ & H & _). destruct (H T) as (b & E & Hb). rewrite E. destruct b; [|reflexivity].
  assert (F := proj1 Hb eq_refl). inversion F. lia.
Qed.
