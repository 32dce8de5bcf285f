-Q theories Verif
theories/Base.v
theories/L_averages.v
theories/L_averages2.v
theories/L_balance.v
theories/L_cache.v
theories/L_charts.v
theories/L_collapsed.v
theories/L_config.v
theories/L_contrib.v
theories/L_counts.v
theories/L_data.v
theories/L_doeblin.v
theories/L_drift.v
theories/L_experiment.v
theories/L_experiment2.v
theories/L_extract.v
theories/L_fchain.v
theories/L_fchain2.v
theories/L_fchain3.v
theories/L_fchoice.v
theories/L_fll.v
theories/L_float.v
theories/L_float2.v
theories/L_float3.v
theories/L_float4.v
theories/L_geo.v
theories/L_geo2.v
theories/L_gibbsish.v
theories/L_gibbsish2.v
theories/L_gsource.v
theories/L_gsource2.v
theories/L_honest.v
theories/L_honest2.v
theories/L_init.v
theories/L_joint.v
theories/L_joint2.v
theories/L_joint3.v
theories/L_joint4.v
theories/L_joint5.v
theories/L_labels.v
theories/L_lhlog.v
theories/L_limit.v
theories/L_limit2.v
theories/L_loggers.v
theories/L_lreach.v
theories/L_mcmc.v
theories/L_missing.v
theories/L_model.v
theories/L_names.v
theories/L_operators.v
theories/L_opstats.v
theories/L_params.v
theories/L_params_log.v
theories/L_plot.v
theories/L_plot2.v
theories/L_plotrun.v
theories/L_plotrun2.v
theories/L_program.v
theories/L_program2.v
theories/L_program3.v
theories/L_progress.v
theories/L_reach1.v
theories/L_reach2.v
theories/L_reach3.v
theories/L_reach4.v
theories/L_reach5.v
theories/L_reverse.v
theories/L_sampler.v
theories/L_settings.v
theories/L_simdata.v
theories/L_simplex.v
theories/L_simrun.v
theories/L_size.v
theories/L_slow.v
theories/L_source.v
theories/L_state.v
theories/L_table.v
theories/L_template.v
theories/L_template2.v
theories/L_text.v
theories/L_tracked.v
theories/L_tracked2.v
theories/L_tracked3.v
theories/L_tracked4.v
theories/L_tracked5.v
theories/L_util.v
theories/M_alias.v
theories/M_cache.v
theories/M_charts.v
theories/M_config.v
theories/M_conj.v
theories/M_contrib.v
theories/M_counts.v
theories/M_data.v
theories/M_dist.v
theories/M_drift.v
theories/M_experiment.v
theories/M_extract.v
theories/M_faccept.v
theories/M_fchain.v
theories/M_fchoice.v
theories/M_fll.v
theories/M_float.v
theories/M_geo.v
theories/M_gweights.v
theories/M_init.v
theories/M_lhlog.v
theories/M_loggers.v
theories/M_mcmc.v
theories/M_model.v
theories/M_operators.v
theories/M_opstats.v
theories/M_params.v
theories/M_plot.v
theories/M_plot2.v
theories/M_plotrun.v
theories/M_post.v
theories/M_program.v
theories/M_progress.v
theories/M_results.v
theories/M_sampler.v
theories/M_settings.v
theories/M_sim.v
theories/M_simdata.v
theories/M_simplex.v
theories/M_simrun.v
theories/M_size.v
theories/M_slow.v
theories/M_source.v
theories/M_state.v
theories/M_template.v
theories/M_text.v
theories/M_tracked.v
theories/M_util.v
theories/P_alias.v
theories/P_averages.v
theories/P_cache.v
theories/P_charts.v
theories/P_charts2.v
theories/P_collapsed.v
theories/P_config.v
theories/P_conj.v
theories/P_contrib.v
theories/P_counts.v
theories/P_data.v
theories/P_dicplot.v
theories/P_drift.v
theories/P_ergodic.v
theories/P_experiment.v
theories/P_extract.v
theories/P_faccept.v
theories/P_fchain.v
theories/P_fchoice.v
theories/P_fll.v
theories/P_float.v
theories/P_geo.v
theories/P_gsource.v
theories/P_gweights.v
theories/P_honest.v
theories/P_init.v
theories/P_joint.v
theories/P_lhlog.v
theories/P_limit.v
theories/P_loggers.v
theories/P_mcmc.v
theories/P_model.v
theories/P_operators.v
theories/P_opstats.v
theories/P_params.v
theories/P_pies.v
theories/P_plot.v
theories/P_plot2.v
theories/P_plot3.v
theories/P_plot4.v
theories/P_plotrun.v
theories/P_post.v
theories/P_program.v
theories/P_progress.v
theories/P_results.v
theories/P_sampler.v
theories/P_settings.v
theories/P_sim.v
theories/P_simdata.v
theories/P_simplex.v
theories/P_simplex2.v
theories/P_simrun.v
theories/P_size.v
theories/P_slow.v
theories/P_source.v
theories/P_state.v
theories/P_template.v
theories/P_tracked.v
theories/P_util.v
theories/S_averages.v
theories/S_cache.v
theories/S_charts.v
theories/S_collapsed.v
theories/S_contrib.v
theories/S_counts.v
theories/S_drift.v
theories/S_ergodic.v
theories/S_experiment.v
theories/S_extract.v
theories/S_faccept.v
theories/S_fchain.v
theories/S_fchoice.v
theories/S_fll.v
theories/S_float.v
theories/S_geo.v
theories/S_gsource.v
theories/S_honest.v
theories/S_init.v
theories/S_joint.v
theories/S_lhlog.v
theories/S_limit.v
theories/S_loggers.v
theories/S_mcmc.v
theories/S_model.v
theories/S_operators.v
theories/S_opstats.v
theories/S_params.v
theories/S_plot.v
theories/S_plot2.v
theories/S_plotfiles.v
theories/S_plotrun.v
theories/S_program.v
theories/S_progress.v
theories/S_sampler.v
theories/S_settings.v
theories/S_simdata.v
theories/S_simplex.v
theories/S_simrun.v
theories/S_size.v
theories/S_slow.v
theories/S_source.v
theories/S_state.v
theories/S_template.v
theories/S_tracked.v
