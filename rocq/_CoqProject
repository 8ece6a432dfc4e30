-Q theories Verif
theories/Base.v
theories/Ring.v
theories/Spec.v
theories/M_ff.v
theories/P_ff.v
theories/T_ff.v
theories/M_xform.v
theories/P_xform.v
theories/P_xring.v
theories/Zq.v
theories/M_shake.v
theories/M_table.v
theories/P_brv.v
theories/M_ntt.v
theories/P_ntt.v
theories/P_nttx.v
theories/T_ntt.v
theories/M_codec.v
theories/M_sig.v
theories/P_codec.v
theories/P_keys.v
theories/T_keys.v
theories/P_sig.v
theories/P_comp.v
theories/P_decomp.v
theories/P_sigx.v
theories/T_sig.v
theories/M_verify.v
theories/P_verify.v
theories/P_verifyx.v
theories/T_verify.v
theories/M_float.v
theories/M_samp.v
theories/P_samp.v
theories/P_sampz.v
theories/M_exact.v
theories/P_exp.v
theories/P_exact.v
theories/T_samp.v
theories/Poly.v
theories/M_fft.v
theories/M_ntru.v
theories/M_tree.v
theories/P_ntru.v
theories/P_ntru2.v
theories/M_ieee.v
theories/P_keygen.v
theories/T_ntru.v
theories/SpecR.v
theories/P_cplx.v
theories/P_fft.v
theories/T_fft.v
theories/P_tree.v
theories/P_treel.v
theories/P_treex.v
theories/P_gs.v
theories/P_leaf.v
theories/T_tree.v
theories/P_sign.v
theories/P_signb.v
theories/P_signx.v
theories/P_signv.v
theories/T_sign.v
theories/M_util.v
theories/P_util.v
theories/T_util.v
theories/SpecS.v
theories/P_norm.v
theories/P_normx.v
theories/P_def.v
theories/P_defx.v
theories/P_key.v
theories/P_live.v
theories/P_table.v
theories/P_shake.v
theories/T_shake.v
theories/T_table.v
theories/P_l2.v
theories/SpecF.v
theories/P_err.v
theories/P_ieee.v
theories/P_near.v
theories/P_ferr.v
theories/P_float.v
theories/P_fmerge.v
theories/P_fnorm.v
theories/P_fsign.v
theories/P_fG.v
theories/P_fsv.v
theories/P_fkey.v
theories/P_fgs.v
theories/P_fgsx.v
theories/P_fsamp.v
theories/P_ftree.v
theories/P_ftreex.v
theories/P_ftreek.v
theories/P_ftree64.v
theories/P_fsafe.v
theories/P_fsafex.v
theories/P_fsafey.v
theories/P_fsafek.v
theories/P_fsafe64.v
theories/SpecG.v
theories/P_gauss.v
theories/P_prob.v
theories/P_dist.v
theories/P_dist64.v
theories/SpecJ.v
theories/P_joint.v
theories/P_gsum.v
theories/P_prog.v
theories/P_jprob.v
theories/P_pnorm.v
theories/P_pdef.v
theories/P_tot.v
theories/P_theta.v
theories/P_jfin.v
theories/P_jtot.v
theories/P_jkey.v
theories/P_jgauss.v
theories/P_coset.v
theories/P_jcoset.v
theories/P_loop.v
theories/P_loopk.v
theories/P_loops.v
theories/P_wide.v
theories/P_widek.v
theories/T_float.v
theories/T_fsign.v
theories/T_fgs.v
theories/T_fsamp.v
theories/T_ftree.v
theories/T_fsafe.v
theories/T_dist.v
theories/T_joint.v
theories/T_gauss.v
theories/T_coset.v
theories/T_loop.v
theories/T_wide.v
theories/T_norm.v
theories/T_def.v
theories/T_live.v
theories/SpecK.v
theories/P_fgsu.v
theories/P_genlaw.v
theories/P_genpoly.v
theories/P_kub.v
theories/P_kubx.v
theories/T_kub.v
theories/P_conv.v
theories/P_convx.v
theories/P_genx.v
theories/P_ngen.v
theories/T_genlaw.v
theories/T_ngen.v
theories/P_iso.v
theories/T_iso.v
theories/P_bytes.v
theories/T_bytes.v
theories/SpecA.v
theories/P_arr.v
theories/T_arr.v
theories/SpecH.v
theories/P_hash.v
theories/T_hash.v
theories/SpecM.v
theories/P_sim.v
theories/P_fit.v
theories/P_fitn.v
theories/P_fitm.v
theories/P_fits.v
theories/T_fit.v
theories/P_ver.v
theories/P_vers.v
theories/T_ver.v
theories/T_sim.v
theories/P_blind.v
theories/P_forge.v
theories/T_blind.v
theories/SpecT.v
theories/P_twist.v
theories/T_twist.v
theories/P_simsig.v
theories/T_simsig.v
theories/SpecU.v
theories/P_adapt.v
theories/T_adapt.v
theories/P_resn.v
theories/P_res.v
theories/SpecW.v
theories/P_oob.v
theories/T_oob.v
theories/P_slack.v
theories/T_slack.v
theories/SpecV.v
theories/P_rom.v
theories/T_rom.v
theories/SpecX.v
theories/P_solve.v
theories/P_guess.v
theories/P_coll.v
theories/P_play.v
theories/P_reduce.v
theories/T_reduce.v
theories/T_coll.v
theories/SpecY.v
theories/P_strong.v
theories/T_strong.v
theories/P_birth.v
theories/T_birth.v
theories/P_rand.v
theories/T_rand.v
theories/M_check.v
theories/P_check.v
theories/P_checkx.v
theories/T_check.v
theories/P_units.v
theories/T_units.v
theories/M_test.v
theories/SpecZ.v
theories/P_rounds.v
theories/T_rounds.v
theories/M_testf.v
theories/P_testf.v
theories/T_testf.v
theories/M_testg.v
theories/P_testg.v
theories/T_testg.v
theories/M_testh.v
theories/P_testh.v
theories/P_testhz.v
theories/T_testh.v
theories/M_teste.v
theories/P_teste.v
theories/T_teste.v
theories/M_testd.v
theories/P_testd.v
theories/T_testd.v
theories/M_testc.v
theories/P_testc.v
theories/T_testc.v
