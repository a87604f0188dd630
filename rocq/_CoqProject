-Q theories Verif
theories/Xf.v
theories/Py.v
theories/Xf_facts.v
theories/Py_facts.v
theories/Special.v
theories/Utils_model.v
theories/Calc.v
theories/Spec.v
theories/SpecU.v
theories/Gauss_facts.v
theories/Powerlaw_facts.v
theories/Truncnorm_facts.v
theories/Beta_facts.v
theories/Trap_facts.v
theories/Utils_facts.v
theories/utils_thms.v
theories/Props_utils.v
theories/St.v
theories/Beta_moments.v
theories/Conversions_model.v
theories/SpecConv.v
theories/Conversions_facts.v
theories/conv_thms.v
theories/Props_conv.v
theories/Mass_model.v
theories/Mass_facts.v
theories/mass_thms.v
theories/Props_mass.v
theories/Np.v
theories/Np_facts.v
theories/Spin_model.v
theories/spin_thms.v
theories/Props_spin.v
theories/Smoothed_model.v
theories/SpecSmooth.v
theories/Smoothed_facts.v
theories/smoothed_thms.v
theories/Props_smoothed.v
theories/Interp_model.v
theories/Interp_facts.v
theories/interp_thms.v
theories/Props_interp.v
theories/ipl_thms.v
theories/Props_ipl.v
theories/Cosmo_model.v
theories/Redshift_model.v
theories/SpecCosmo.v
theories/redshift_thms.v
theories/Props_redshift.v
theories/Cosmo_facts.v
theories/cosmo_thms.v
theories/Props_cosmo.v
theories/Vt_model.v
theories/SpecVt.v
theories/vt_thms.v
theories/Props_vt.v
theories/gridvt_thms.v
theories/Props_gridvt.v
theories/Double.v
theories/Double_facts.v
theories/Hyperpe_model.v
theories/SpecHyper.v
theories/hypera_thms.v
theories/Props_hypera.v
theories/hyperb_thms.v
theories/Props_hyperb.v
theories/hyperc_thms.v
theories/Props_hyperc.v
theories/hyperd_thms.v
theories/Props_hyperd.v
theories/Backend_model.v
theories/SpecBackend.v
theories/backend_thms.v
theories/Props_backend.v
theories/Numpyro_model.v
theories/numpyro_thms.v
theories/Props_numpyro.v
theories/Meta_model.v
theories/meta_thms.v
theories/Props_meta.v
theories/SpecQuad.v
theories/Quad_facts.v
theories/quad_thms.v
theories/Props_quad.v
theories/SpecProb.v
theories/prob_thms.v
theories/Props_prob.v
theories/reduce_thms.v
theories/Props_reduce.v
theories/indep_thms.v
theories/Props_indep.v
theories/lln_thms.v
theories/Props_lln.v
theories/SpecClass.v
theories/smooth2_thms.v
theories/Props_smooth2.v
theories/SpecInvar.v
theories/invar_thms.v
theories/Props_invar.v
theories/SpecUnb.v
theories/unb_thms.v
theories/Props_unb.v
theories/SpecDoc.v
theories/docf_thms.v
theories/Props_docf.v
theories/SpecBound.v
theories/bound_thms.v
theories/Props_bound.v
theories/SpecAgree.v
theories/agree_thms.v
theories/Props_agree.v
theories/Rounded_model.v
theories/SpecRound.v
theories/round_thms.v
theories/Props_round.v
theories/SpecOrder.v
theories/order_thms.v
theories/Props_order.v
theories/convb_thms.v
theories/Props_convb.v
theories/SpecTrap.v
theories/Trap_model.v
theories/trap_thms.v
theories/Props_trap.v
theories/RoundedPl_model.v
theories/SpecRoundPl.v
theories/roundpl_thms.v
theories/Props_roundpl.v
theories/SpecCond.v
theories/cond_thms.v
theories/Props_cond.v
theories/limit_thms.v
theories/Props_limit.v
theories/iplb_thms.v
theories/Props_iplb.v
theories/npinj_thms.v
theories/Props_npinj.v
theories/RoundedTrap_model.v
theories/SpecRoundTrap.v
theories/roundtrap_thms.v
theories/Props_roundtrap.v
theories/RoundedWindow_model.v
theories/SpecRoundWindow.v
theories/roundwin_thms.v
theories/Props_roundwin.v
theories/SpecScore.v
theories/score_thms.v
theories/Props_score.v
theories/SpecCoord.v
theories/coord_thms.v
theories/Props_coord.v
theories/SpecUnits.v
theories/units_thms.v
theories/Props_units.v
theories/nest_thms.v
theories/Props_nest.v
theories/SpecRows.v
theories/rows_thms.v
theories/Props_rows.v
theories/SpecCont.v
theories/cont_thms.v
theories/Props_cont.v
theories/contl_thms.v
theories/Props_contl.v
theories/steps_thms.v
theories/Props_steps.v
theories/Priors_model.v
theories/SpecPrior.v
theories/priors_thms.v
theories/Props_priors.v
theories/Example_model.v
theories/SpecExample.v
theories/notebook_thms.v
theories/Props_notebook.v
theories/Cache_model.v
theories/SpecCache.v
theories/cache_thms.v
theories/Props_cache.v
theories/Survey_model.v
theories/SpecSurvey.v
theories/survey_thms.v
theories/Props_survey.v
theories/Abstract_model.v
theories/abstract_thms.v
theories/Props_abstract.v
theories/RoundedLogl_model.v
theories/SpecRoundLogl.v
theories/roundll_thms.v
theories/Props_roundll.v
theories/SpecGap.v
theories/gap_thms.v
theories/Props_gap.v
theories/RoundedVariance_model.v
theories/roundvar_thms.v
theories/Props_roundvar.v
theories/ident_thms.v
theories/Props_ident.v
theories/SpecDeriv.v
theories/deriv_thms.v
theories/Props_deriv.v
theories/Ad_model.v
theories/SpecAd.v
theories/ad_thms.v
theories/Props_ad.v
theories/opt_thms.v
theories/Props_opt.v
theories/Nd_model.v
theories/SpecNd.v
theories/nd_thms.v
theories/Props_nd.v
theories/RoundedTn_model.v
theories/SpecRoundTn.v
theories/roundtn_thms.v
theories/Props_roundtn.v
theories/RoundedConv_model.v
theories/SpecRoundConv.v
theories/roundconv_thms.v
theories/Props_roundconv.v
theories/NdModels_model.v
theories/SpecNdModels.v
theories/ndmodels_thms.v
theories/Props_ndmodels.v
theories/NdRedshift_model.v
theories/ndredshift_thms.v
theories/Props_ndredshift.v
theories/RoundedBeta_model.v
theories/SpecRoundBeta.v
theories/roundbeta_thms.v
theories/Props_roundbeta.v
theories/NumInterp_model.v
theories/numinterp_thms.v
theories/Props_numinterp.v
theories/RoundedRate_model.v
theories/SpecRoundRate.v
theories/roundrate_thms.v
theories/Props_roundrate.v
theories/RoundedMix_model.v
theories/SpecRoundMix.v
theories/roundmix_thms.v
theories/Props_roundmix.v
theories/RoundedSmooth_model.v
theories/roundsmooth_thms.v
theories/Props_roundsmooth.v
theories/RoundedRedshift_model.v
theories/roundz_thms.v
theories/Props_roundz.v
theories/RoundedJoint_model.v
theories/roundjoint_thms.v
theories/Props_roundjoint.v
theories/RoundedRatio_model.v
theories/roundratio_thms.v
theories/Props_roundratio.v
