-Q theories Verif
theories/Base.v
theories/Flags_model.v
theories/Flags_spec.v
theories/Flags_proofs.v
theories/Flags_props.v
theories/Naming_model.v
theories/Naming_proofs.v
theories/Naming_props.v
theories/Shearpos_model.v
theories/Shearpos_spec.v
theories/Shearpos_proofs.v
theories/Shearpos_props.v
theories/Arr.v
theories/Median.v
theories/Detect_model.v
theories/Detect_spec.v
theories/Detect_proofs.v
theories/Detect_props.v
theories/Interp_model.v
theories/Interp_spec.v
theories/Interp_proofs.v
theories/Interp_props.v
theories/Masking_model.v
theories/Masking_spec.v
theories/Masking_proofs.v
theories/Masking_props.v
theories/Summ_model.v
theories/Summ_spec.v
theories/Summ_proofs.v
theories/Summ_props.v
theories/Coadd_model.v
theories/Coadd_spec.v
theories/Coadd_proofs.v
theories/Coadd_props.v
theories/Wavg_model.v
theories/Wavg_spec.v
theories/Wavg_proofs.v
theories/Wavg_props.v
theories/Joint_model.v
theories/Joint_spec.v
theories/Joint_proofs.v
theories/Joint_props.v
theories/Conf_model.v
theories/Conf_spec.v
theories/Conf_proofs.v
theories/Conf_props.v
theories/Mdet_model.v
theories/Mdet_spec.v
theories/Mcache_proofs.v
theories/Mcache_props.v
theories/Mdet_proofs.v
theories/Mdet_props.v
theories/Dict.v
theories/Lutil_model.v
theories/Lutil_spec.v
theories/Lutil_proofs.v
theories/Lutil_props.v
theories/Lexp_model.v
theories/Lexp_spec.v
theories/Lexp_proofs.v
theories/Lexp_props.v
theories/Lthr_model.v
theories/Lthr_spec.v
theories/Lthr_proofs.v
theories/Lthr_props.v
theories/Lmdet_model.v
theories/Lmdet_spec.v
theories/Lmdet_proofs.v
theories/Lmdet_props.v
theories/Lmeas_model.v
theories/Lmeas_spec.v
theories/Lmeas_proofs.v
theories/Lmeas_props.v
theories/Lsub_model.v
theories/Lsub_spec.v
theories/Lsub_proofs.v
theories/Lsub_props.v
theories/Lnoise_model.v
theories/Lnoise_spec.v
theories/Lnoise_proofs.v
theories/Lnoise_props.v
theories/Lmask_model.v
theories/Lmask_spec.v
theories/Lmask_proofs.v
theories/Lmask_props.v
theories/Lsky_model.v
theories/Lsky_spec.v
theories/Lsky_proofs.v
theories/Lsky_props.v
theories/Lmcal_model.v
theories/Lmcal_spec.v
theories/Lmcal_proofs.v
theories/Lmcal_props.v
theories/Mcol_spec.v
theories/Mcol_proofs.v
theories/Mcol_props.v
theories/Lscar_model.v
theories/Lscar_spec.v
theories/Lscar_proofs.v
theories/Lscar_props.v
theories/Lphot_model.v
theories/Lphot_spec.v
theories/Lphot_proofs.v
theories/Lphot_props.v
theories/Lrun_model.v
theories/Lrun_spec.v
theories/Lrun_proofs.v
theories/Lrun_props.v
theories/Mrun_model.v
theories/Mrun_spec.v
theories/Mrun_proofs.v
theories/Mrun_props.v
theories/Lplane_model.v
theories/Lplane_spec.v
theories/Lplane_proofs.v
theories/Lplane_props.v
theories/Lrest_model.v
theories/Lrest_spec.v
theories/Lrest_proofs.v
theories/Lrest_props.v
theories/Mrng_model.v
theories/Mrng_spec.v
theories/Mrng_proofs.v
theories/Mrng_props.v
theories/Ldeb_model.v
theories/Ldeb_spec.v
theories/Ldeb_proofs.v
theories/Ldeb_props.v
theories/Lrng_model.v
theories/Lrng_spec.v
theories/Lrng_proofs.v
theories/Lrng_props.v
theories/Jrun_model.v
theories/Jrun_spec.v
theories/Jrun_proofs.v
theories/Jrun_props.v
theories/Lheavy_model.v
theories/Lheavy_spec.v
theories/Lheavy_proofs.v
theories/Lheavy_props.v
theories/Order_spec.v
theories/Order_proofs.v
theories/Order_props.v
theories/Scale_spec.v
theories/Scale_proofs.v
theories/Scale_props.v
theories/Refuse_spec.v
theories/Refuse_proofs.v
theories/Refuse_props.v
theories/Wflag_spec.v
theories/Wflag_proofs.v
theories/Wflag_props.v
theories/Jflag_spec.v
theories/Jflag_proofs.v
theories/Jflag_props.v
theories/Width_spec.v
theories/Width_proofs.v
theories/Width_props.v
theories/Lfit_model.v
theories/Lfit_spec.v
theories/Lfit_proofs.v
theories/Lfit_props.v
theories/Fp_model.v
theories/Fp_spec.v
theories/Fp_proofs.v
theories/Fp_props.v
theories/Mlocal_spec.v
theories/Mlocal_proofs.v
theories/Mlocal_props.v
theories/Mcomp_spec.v
theories/Mcomp_proofs.v
theories/Mcomp_props.v
theories/Lcomp_spec.v
theories/Lcomp_proofs.v
theories/Lcomp_props.v
theories/Lmove_spec.v
theories/Lmove_proofs.v
theories/Lmove_props.v
theories/Fpe_model.v
theories/Fpe_spec.v
theories/Fpe_proofs.v
theories/Fpe_props.v
theories/Nan_model.v
theories/Nan_spec.v
theories/Nan_proofs.v
theories/Nan_props.v
theories/Turn_spec.v
theories/Turn_proofs.v
theories/Turn_props.v
theories/Vis_model.v
theories/Vis_spec.v
theories/Vis_proofs.v
theories/Vis_props.v
theories/Mono_spec.v
theories/Mono_proofs.v
theories/Mono_props.v
theories/Onlyb_spec.v
theories/Onlyb_proofs.v
theories/Onlyb_props.v
theories/Mtab_model.v
theories/Mtab_spec.v
theories/Mtab_proofs.v
theories/Mtab_props.v
theories/Clean_spec.v
theories/Clean_proofs.v
theories/Clean_props.v
theories/Lown_model.v
theories/Lown_spec.v
theories/Lown_proofs.v
theories/Lown_props.v
theories/Medsio_model.v
theories/Medsio_spec.v
theories/Medsio_proofs.v
theories/Medsio_props.v
theories/Mmove_spec.v
theories/Mmove_proofs.v
theories/Mmove_props.v
theories/Mtot_spec.v
theories/Mtot_proofs.v
theories/Mtotr_proofs.v
theories/Mtot_props.v
theories/Ltot_spec.v
theories/Ltot_proofs.v
theories/Ltot_props.v
theories/Lrtot_spec.v
theories/Lrtot_proofs.v
theories/Lrtot_props.v
theories/Lptot_spec.v
theories/Lptot_proofs.v
theories/Lptot_props.v
theories/Lstot_spec.v
theories/Lstot_proofs.v
theories/Lstot_props.v
