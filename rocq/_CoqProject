-Q theories Verif
theories/Adm2_proofs.v
theories/Adm3_proofs.v
theories/Adm_model.v
theories/Adm_proofs.v
theories/Adm_props.v
theories/Adm_spec.v
theories/Adme2_props.v
theories/Adme_model.v
theories/Adme_props.v
theories/Algebra_model.v
theories/Algebra_proofs.v
theories/Algebra_props.v
theories/Algebra_spec.v
theories/Angle_model.v
theories/Angle_proofs.v
theories/Angle_props.v
theories/Angle_spec.v
theories/Args_model.v
theories/Args_props.v
theories/Args_spec.v
theories/Arrays.v
theories/Atten_model.v
theories/Atten_props.v
theories/Base.v
theories/Bc_model.v
theories/Bc_props.v
theories/Bc_rel.v
theories/Bc_spec.v
theories/Bfaces_model.v
theories/Bfaces_proofs.v
theories/Bfaces_props.v
theories/Bfaces_spec.v
theories/Bh_model.v
theories/Bh_proofs.v
theories/Bh_props.v
theories/Bicg_props.v
theories/Blocks_model.v
theories/Blocks_props.v
theories/Bound_model.v
theories/Bound_props.v
theories/Bssn2_proofs.v
theories/Bssn_model.v
theories/Bssn_proofs.v
theories/Bssn_props.v
theories/Bssn_spec.v
theories/Cart2_proofs.v
theories/Cart2_props.v
theories/Cart3_proofs.v
theories/Cart_ex.v
theories/Cart_model.v
theories/Cart_proofs.v
theories/Cart_props.v
theories/Cart_spec.v
theories/Cheb_model.v
theories/Cheb_proofs.v
theories/Cheb_props.v
theories/Cheb_spec.v
theories/Ckpt_model.v
theories/Ckpt_proofs.v
theories/Ckpt_props.v
theories/Ckpt_spec.v
theories/Conf_proofs.v
theories/Conv_model.v
theories/Conv_props.v
theories/Conv_spec.v
theories/Coord2_props.v
theories/Coord3_props.v
theories/Coord_model.v
theories/Coord_props.v
theories/Coord_spec.v
theories/Cub2_props.v
theories/Cub3_props.v
theories/Cub_model.v
theories/Cub_proofs.v
theories/Cub_props.v
theories/Cub_spec.v
theories/Dcov_model.v
theories/Dcov_proofs.v
theories/Dcov_props.v
theories/Dcov_spec.v
theories/Dir_model.v
theories/Dir_props.v
theories/Dir_spec.v
theories/Diss2_props.v
theories/Diss_model.v
theories/Diss_proofs.v
theories/Diss_props.v
theories/Diss_spec.v
theories/Endian_model.v
theories/Endian_props.v
theories/Endian_spec.v
theories/Evdrv_model.v
theories/Evdrv_props.v
theories/Evolve_model.v
theories/Evolve_props.v
theories/Extr_model.v
theories/Extr_proofs.v
theories/Extr_props.v
theories/Extr_spec.v
theories/Faces_model.v
theories/Faces_props.v
theories/Faces_spec.v
theories/Fd_model.v
theories/Fd_props.v
theories/Fd_spec.v
theories/Fdj_model.v
theories/Fdj_props.v
theories/Fft_cos.v
theories/Fft_cos2.v
theories/Fft_model.v
theories/Fft_proofs.v
theories/Fft_props.v
theories/Fft_real.v
theories/Fft_spec.v
theories/Fftw_model.v
theories/Fftw_props.v
theories/Filt_model.v
theories/Filt_props.v
theories/Filt_spec.v
theories/Find2_props.v
theories/Find_model.v
theories/Find_props.v
theories/Finite_model.v
theories/Finite_props.v
theories/Flatten_model.v
theories/Flatten_proofs.v
theories/Flatten_props.v
theories/Flatten_spec.v
theories/Four_model.v
theories/Four_proofs.v
theories/Four_props.v
theories/Four_spec.v
theories/Frame_proofs.v
theories/Fsurf_model.v
theories/Fsurf_props.v
theories/Gam_proofs.v
theories/Gam_props.v
theories/Gauge_props.v
theories/Index_model.v
theories/Index_props.v
theories/Integ_proofs.v
theories/Integ_props.v
theories/Integ_spec.v
theories/Interp_props.v
theories/Kchk_model.v
theories/Kchk_props.v
theories/Ks2_proofs.v
theories/Ks3_proofs.v
theories/Ks4_proofs.v
theories/Ks_model.v
theories/Ks_proofs.v
theories/Ks_props.v
theories/Ks_spec.v
theories/Leg_math.v
theories/Lindep.v
theories/Lines_kernel.v
theories/Lines_model.v
theories/Lines_proofs.v
theories/Lines_props.v
theories/Lines_spec.v
theories/Lists_api_spec.v
theories/Lists_model.v
theories/Lists_proofs.v
theories/Lists_props.v
theories/Lists_spec.v
theories/Loops.v
theories/Lsrch_model.v
theories/Lsrch_proofs.v
theories/Lsrch_proofs2.v
theories/Lsrch_proofs3.v
theories/Lsrch_props.v
theories/Lsrch_spec.v
theories/Lu_det.v
theories/Lu_model.v
theories/Lu_proofs.v
theories/Lu_props.v
theories/Lu_spec.v
theories/Mat_inst.v
theories/Mat_model.v
theories/Mat_proofs.v
theories/Mat_props.v
theories/Mat_spec.v
theories/Min2_props.v
theories/Min_model.v
theories/Min_props.v
theories/Min_spec.v
theories/Modes_math.v
theories/Modes_model.v
theories/Modes_proofs.v
theories/Modes_props.v
theories/Modes_spec.v
theories/Newton_props.v
theories/Norm_props.v
theories/Ode_model.v
theories/Ode_props.v
theories/Ode_spec.v
theories/Output_model.v
theories/Output_props.v
theories/Params_api_spec.v
theories/Params_db_proofs.v
theories/Params_model.v
theories/Params_parse_proofs.v
theories/Params_pdb_proofs.v
theories/Params_props.v
theories/Params_spec.v
theories/Pman_model.v
theories/Pman_props.v
theories/Pnco2_props.v
theories/Pnco3_props.v
theories/Pnco_model.v
theories/Pnco_props.v
theories/Points_model.v
theories/Points_props.v
theories/Points_spec.v
theories/Poisson_model.v
theories/Poisson_props.v
theories/Poisson_spec.v
theories/Probe_model.v
theories/Probe_props.v
theories/Probe_spec.v
theories/Quad_model.v
theories/Quad_props.v
theories/Quad_spec.v
theories/Rho_model.v
theories/Rho_props.v
theories/Rk_model.v
theories/Rk_props.v
theories/Rk_spec.v
theories/Root_model.v
theories/Root_props.v
theories/Root_spec.v
theories/Rotate_model.v
theories/Rotate_props.v
theories/Rsum.v
theories/Rts_model.v
theories/Rts_props.v
theories/Rutil.v
theories/Ser_proofs.v
theories/Ser_props.v
theories/Setup_model.v
theories/Setup_proofs.v
theories/Setup_props.v
theories/Setup_spec.v
theories/Skeleton_model.v
theories/Skeleton_props.v
theories/Sok3_model.v
theories/Sok3_props.v
theories/Sok_model.v
theories/Sok_props.v
theories/Sok_spec.v
theories/Sokb_model.v
theories/Sokb_props.v
theories/Sokp_model.v
theories/Sokp_props.v
theories/Sokr_model.v
theories/Sokr_proofs.v
theories/Sokr_props.v
theories/Solvers_model.v
theories/Solvers_proofs.v
theories/Solvers_props.v
theories/Solvers_spec.v
theories/Sor_props.v
theories/Sparse_model.v
theories/Sparse_proofs.v
theories/Sparse_props.v
theories/Sparse_spec.v
theories/Sphere_model.v
theories/Sphere_props.v
theories/Step_props.v
theories/Storage_model.v
theories/Storage_proofs.v
theories/Storage_props.v
theories/Storage_spec.v
theories/Sw_model.v
theories/Sw_props.v
theories/Sw_spec.v
theories/Swsh_model.v
theories/Swsh_proofs.v
theories/Swsh_props.v
theories/Swsh_spec.v
theories/Tensors_model.v
theories/Tensors_proofs.v
theories/Tensors_props.v
theories/Tensors_spec.v
theories/Tid_model.v
theories/Tid_proofs.v
theories/Tid_props.v
theories/Tid_spec.v
theories/Trans_model.v
theories/Trans_proofs.v
theories/Trans_props.v
theories/Trig.v
theories/Vars_api_spec.v
theories/Vars_dup_props.v
theories/Vars_model.v
theories/Vars_proofs.v
theories/Vars_props.v
theories/Vars_spec.v
theories/Vlist_proofs.v
theories/Wt_props.v
theories/Yfil_math.v
theories/Yfil_model.v
theories/Yfil_proofs.v
theories/Yfil_proofs2.v
theories/Yfil_props.v
theories/Yfil_spec.v
theories/Ylm_math.v
theories/Ylm_math2.v
theories/Ylm_model.v
theories/Ylm_proofs.v
theories/Ylm_props.v
theories/Ylm_spec.v
