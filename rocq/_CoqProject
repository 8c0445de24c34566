-Q theories Verif
theories/Afun_Model.v
theories/Afun_Proofs.v
theories/Afun_Props.v
theories/Afun_Spec.v
theories/Ainur_Macro.v
theories/Ainur_Model.v
theories/Ainur_Proofs.v
theories/Ainur_Props.v
theories/Ainur_Spec.v
theories/Akima_Model.v
theories/Akima_Proofs.v
theories/Akima_Props.v
theories/Akima_Spec.v
theories/Appi_Model.v
theories/Appi_Props.v
theories/Appi_Spec.v
theories/Asp_Model.v
theories/Asp_Proofs.v
theories/Asp_Props.v
theories/Asp_Spec.v
theories/Ast_Model.v
theories/Ast_Proofs.v
theories/Ast_Props.v
theories/Ast_Spec.v
theories/Avec_Model.v
theories/Avec_Proofs.v
theories/Avec_Props.v
theories/Avec_Spec.v
theories/Base64_Model.v
theories/Base64_Proofs.v
theories/Base64_Props.v
theories/Base64_Spec.v
theories/Bisect_Model.v
theories/Bisect_Proofs.v
theories/Bisect_Props.v
theories/BitManip_Model.v
theories/BitManip_Proofs.v
theories/BitManip_Props.v
theories/BitManip_Spec.v
theories/Canon_Model.v
theories/Canon_Proofs.v
theories/Canon_Props.v
theories/Canon_Spec.v
theories/Cf_Model.v
theories/Cf_Proofs.v
theories/Cf_Props.v
theories/Cf_Spec.v
theories/Cfio_Model.v
theories/Cfio_Props.v
theories/Cfio_Spec.v
theories/Cheb_Model.v
theories/Cheb_Proofs.v
theories/Cheb_Props.v
theories/Cheb_Spec.v
theories/Chser_Model.v
theories/Chser_Proofs.v
theories/Chser_Props.v
theories/Chser_Spec.v
theories/Chsolv_Model.v
theories/Chsolv_Proofs.v
theories/Chsolv_Props.v
theories/Chsolv_Spec.v
theories/Conc_Model.v
theories/Conc_Props.v
theories/Cplx.v
theories/Crs_Base.v
theories/Crs_Model.v
theories/Crs_Proofs.v
theories/Crs_Proofs2.v
theories/Crs_Proofs3.v
theories/Crs_Proofs4.v
theories/Crs_Proofs5.v
theories/Crs_Props.v
theories/Crs_Spec.v
theories/Crsf_Model.v
theories/Crsf_Proofs.v
theories/Crsf_Props.v
theories/Dense_Model.v
theories/Dense_Proofs.v
theories/Dense_Props.v
theories/Dense_Spec.v
theories/Enumf_Model.v
theories/Enumf_Props.v
theories/Fermi_Model.v
theories/Fermi_Proofs.v
theories/Fermi_Props.v
theories/Gap_Model.v
theories/Gap_Proofs.v
theories/Gap_Proofs2.v
theories/Gap_Props.v
theories/Gap_Spec.v
theories/Gemm_Model.v
theories/Gemm_Proofs.v
theories/Gemm_Props.v
theories/Gemm_Spec.v
theories/Geo_Model.v
theories/Geo_Proofs.v
theories/Geo_Proofs2.v
theories/Geo_Proofs3.v
theories/Geo_Proofs4.v
theories/Geo_Props.v
theories/Geo_Props2.v
theories/Geo_Spec.v
theories/Gin_Model.v
theories/Gin_Proofs.v
theories/Gin_Proofs2.v
theories/Gin_Proofs3.v
theories/Gin_Props.v
theories/Gin_Spec.v
theories/Gpr_Model.v
theories/Gpr_Props.v
theories/Gpr_Spec.v
theories/Ground_Model.v
theories/Ground_Proofs.v
theories/Ground_Props.v
theories/Ground_Spec.v
theories/Gwr_Model.v
theories/Gwr_Proofs.v
theories/Gwr_Props.v
theories/Gwr_Spec.v
theories/Inc_Model.v
theories/Inc_Proofs.v
theories/Inc_Props.v
theories/Inc_Spec.v
theories/Input_Model.v
theories/Input_Parse.v
theories/Input_Proofs.v
theories/Input_Props.v
theories/Input_Read.v
theories/Input_Spec.v
theories/Knf_Model.v
theories/Knf_Props.v
theories/Knf_Spec.v
theories/Lanall_Props.v
theories/Lanczos_Model.v
theories/Lanczos_Proofs.v
theories/Lanczos_Proofs2.v
theories/Lanczos_Props.v
theories/Lanczos_Spec.v
theories/Lanreo_Props.v
theories/Lap_Model.v
theories/Lap_Proofs.v
theories/Lap_Props.v
theories/Lap_Spec.v
theories/Linpred_Model.v
theories/Linpred_Proofs.v
theories/Linpred_Props.v
theories/Linpred_Spec.v
theories/Lrange_Model.v
theories/Lrange_Proofs.v
theories/Lrange_Props.v
theories/Lrange_Spec.v
theories/Lzo_Model.v
theories/Lzo_Props.v
theories/Lzo_Spec.v
theories/Maxc_Model.v
theories/Maxc_Proofs.v
theories/Maxc_Props.v
theories/Maxc_Spec.v
theories/Mesh_Model.v
theories/Mesh_Props.v
theories/Mesh_Spec.v
theories/Minim_Model.v
theories/Minim_Proofs.v
theories/Minim_Props.v
theories/Minim_Spec.v
theories/Mpi_Model.v
theories/Mpi_Proofs.v
theories/Mpi_Props.v
theories/Mpi_Spec.v
theories/Mpim_Model.v
theories/Mpim_Proofs.v
theories/Mpim_Props.v
theories/Mpr_Model.v
theories/Mpr_Proofs.v
theories/Mpr_Props.v
theories/Mpr_Spec.v
theories/Mred_Model.v
theories/Mred_Props.v
theories/Mred_Spec.v
theories/Mres_Model.v
theories/Mres_Proofs.v
theories/Mres_Props.v
theories/Mres_Spec.v
theories/Ng_Bool.v
theories/Ng_Codec.v
theories/Ng_Comp.v
theories/Ng_Model.v
theories/Ng_Proofs.v
theories/Ng_Props.v
theories/Ng_Spec.v
theories/Ng_Store.v
theories/Ngs_Model.v
theories/Ngs_Props.v
theories/Nrm_Model.v
theories/Nrm_Proofs.v
theories/Nrm_Props.v
theories/Nrm_Spec.v
theories/Ofs_Model.v
theories/Ofs_Proofs.v
theories/Ofs_Props.v
theories/Ofs_Spec.v
theories/Opspec_Model.v
theories/Opspec_Proofs.v
theories/Opspec_Props.v
theories/Opspec_Spec.v
theories/Parallel_Model.v
theories/Parallel_Proofs.v
theories/Parallel_Props.v
theories/Parallel_Spec.v
theories/Permutations_Model.v
theories/Permutations_Proofs.v
theories/Permutations_Props.v
theories/Permutations_Spec.v
theories/Pred_Model.v
theories/Pred_Proofs.v
theories/Pred_Props.v
theories/Pred_Spec.v
theories/Prelude.v
theories/Prog_Model.v
theories/Prog_Proofs.v
theories/Prog_Props.v
theories/Prog_Spec.v
theories/R48_Model.v
theories/R48_Proofs.v
theories/R48_Props.v
theories/R48_Spec.v
theories/Random_Model.v
theories/Random_Proofs.v
theories/Random_Props.v
theories/Random_Spec.v
theories/Rid_Model.v
theories/Rid_Proofs.v
theories/Rid_Props.v
theories/Rid_Spec.v
theories/Ring.v
theories/Rk_Model.v
theories/Rk_Proofs.v
theories/Rk_Props.v
theories/Rk_Spec.v
theories/Rkr_Proofs.v
theories/Rot_Model.v
theories/Rot_Proofs.v
theories/Rot_Props.v
theories/Rot_Spec.v
theories/Rsum.v
theories/Simple_Model.v
theories/Simple_Proofs.v
theories/Simple_Props.v
theories/Simple_Spec.v
theories/Solv_Model.v
theories/Solv_Proofs.v
theories/Solv_Props.v
theories/Solv_Spec.v
theories/Sort_Model.v
theories/Sort_Proofs.v
theories/Sort_Props.v
theories/Sort_Spec.v
theories/Sparse_Model.v
theories/Sparse_Proofs.v
theories/Sparse_Props.v
theories/Sparse_Spec.v
theories/Str_Model.v
theories/Str_Proofs.v
theories/Str_Props.v
theories/Str_Spec.v
theories/Strc_Model.v
theories/Strc_Proofs.v
theories/Strc_Props.v
theories/Strc_Spec.v
theories/SumDecomp_Model.v
theories/SumDecomp_Proofs.v
theories/SumDecomp_Props.v
theories/SumDecomp_Spec.v
theories/Text_Model.v
theories/Text_Proofs.v
theories/Text_Props.v
theories/Text_Spec.v
theories/Thr_Model.v
theories/Thr_Proofs.v
theories/Thr_Props.v
theories/Thr_Spec.v
theories/Tri_Model.v
theories/Tri_Proofs.v
theories/Tri_Props.v
theories/Vec_Model.v
theories/Vec_Proofs.v
theories/Vec_Props.v
theories/Vec_Spec.v
theories/View_Model.v
theories/View_Proofs.v
theories/View_Props.v
theories/View_Spec.v
