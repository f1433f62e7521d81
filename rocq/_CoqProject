-Q theories Verif
theories/Base.v
theories/Dense_Model.v
theories/Dense_Proofs.v
theories/Sparse_Model.v
theories/Sparse_Spec.v
theories/Sparse_CooProofs.v
theories/Sparse_Lib.v
theories/Sparse_Dedup.v
theories/Sparse_Rows.v
theories/Sparse_CsrProofs.v
theories/Sparse_CscProofs.v
theories/Sparse_Compressed.v
theories/Sparse_Convert.v
theories/Sparse_Ops.v
theories/Sparse_Ring.v
theories/Sparse_Thm.v
theories/Sort_Model.v
theories/Sort_Thm.v
theories/LabMat_Model.v
theories/Dense_Thm.v
theories/RBase.v
theories/LabVec_Model.v
theories/LabVec_Thm.v
theories/Inverse_Model.v
theories/LabMat_Thm.v
theories/Eqs_Model.v
theories/Eqs_Thm.v
theories/Grid_Model.v
theories/Grid_Thm.v
theories/Bcs_Model.v
theories/Bcs_Thm.v
theories/Fdm_Model.v
theories/Fdm_Asm.v
theories/Fdm_Stencil.v
theories/Fdm_Cap.v
theories/Fdm_Entries.v
theories/Fdm_Coef.v
theories/Fdm_Thm.v
theories/Fdm_Vec.v
theories/Fdm_Equiv.v
theories/Fdm_Cons.v
theories/Fdm_Exists.v
theories/Hist_Model.v
theories/Hist_Thm.v
theories/Stat_Model.v
theories/Stat_Thm.v
theories/Dist_Model.v
theories/Dist_Thm.v
theories/Cheb_Model.v
theories/Cheb_Thm.v
theories/Transfinite_Model.v
theories/Transfinite_Thm.v
theories/Erk_Tab_Model.v
theories/Erk_Tab_Thm.v
theories/Ode_Base_Model.v
theories/Ode_Base_Thm.v
theories/Ode_Drv_Model.v
theories/Ode_Drv_Thm.v
theories/Ode_Out_Thm.v
theories/Erk_Model.v
theories/Ode_Sim_Thm.v
theories/Erk_Thm.v
theories/Erk_Ctl_Thm.v
theories/Erk_Dense_Thm.v
theories/Erk_Exact_Thm.v
theories/Bwe_Model.v
theories/Bwe_Thm.v
theories/Erk_Hist_Thm.v
theories/Radau_Model.v
theories/Radau_Thm.v
theories/Radau_Hist_Thm.v
theories/Search_Model.v
theories/Search_Thm.v
theories/Newton_Model.v
theories/Newton_Thm.v
theories/RSum.v
theories/Fit_Model.v
theories/Fit_Thm.v
theories/Util_Model.v
theories/Util_Thm.v
theories/Float_Model.v
theories/Float_Thm.v
theories/MathFn_Model.v
theories/MathFn_Thm.v
theories/Quad_Model.v
theories/Quad_Thm.v
theories/Bspline_Model.v
theories/Bspline_Thm.v
theories/Jacobi_Model.v
theories/Jacobi_Thm.v
theories/Poly.v
theories/ChebFn_Model.v
theories/ChebFn_Thm.v
theories/InterpCheb_Model.v
theories/InterpCheb_Thm.v
theories/InterpLagrange_Model.v
theories/InterpLagrange_Thm.v
theories/Tensor_Model.v
theories/Tensor4_Model.v
theories/Tensor_Spec.v
theories/Tensor_Lib.v
theories/Tensor_Thm.v
theories/Tensor2_Thm.v
theories/Tensor4_Thm.v
theories/TensorMix_Thm.v
theories/TensorMix2_Thm.v
theories/TensorMix3_Thm.v
theories/SmallMat_Model.v
theories/SmallMat_Thm.v
theories/GaussJ_Thm.v
theories/LinElast_Model.v
theories/LinElast_Thm.v
theories/TensorDeriv_Model.v
theories/TensorDeriv_Spec.v
theories/TensorDeriv_Thm.v
theories/TensorDeriv2_Thm.v
theories/TensorDeriv3_Thm.v
theories/Nonlin_Model.v
theories/Nonlin_Lib.v
theories/Nonlin_Drv_Thm.v
theories/Nonlin_Stop_Thm.v
theories/Nonlin_Err_Thm.v
theories/Nonlin_Bord_Thm.v
theories/Nonlin_Out_Thm.v
theories/MM_Model.v
theories/MM_Thm.v
theories/MM_Write_Thm.v
theories/NumJac_Model.v
theories/NumJac_Thm.v
theories/LinSol_Model.v
theories/LinSol_Thm.v
theories/LinSol_Mumps_Thm.v
theories/Table_Model.v
theories/Table_Thm.v
theories/Spectral_Model.v
theories/Spectral_Thm.v
theories/Verify_Model.v
theories/Verify_Thm.v
theories/Spc_Model.v
theories/Spc_Asm.v
theories/Spc_Diff.v
theories/Spc_Thm.v
theories/Spc2_Thm.v
theories/Legendre_Model.v
theories/Legendre_Proofs.v
theories/Legendre_Thm.v
theories/Tensor3_Model.v
theories/Tensor3_Thm.v
theories/OdeSample_Model.v
theories/OdeSample_Thm.v
theories/NumDeriv_Model.v
theories/NumDeriv_Proofs.v
theories/NumDeriv_Thm.v
theories/NonlinSample_Model.v
theories/NonlinSample_Thm.v
theories/TfSample_Model.v
theories/TfSample_Thm.v
theories/PdeSample_Model.v
theories/PdeSample_Thm.v
theories/PdeSeries_Thm.v
theories/Nonlin_Pred_Thm.v
theories/Nonlin_Rec_Thm.v
theories/Nonlin_Nan_Model.v
theories/Nonlin_Nan_Thm.v
theories/Metrics_Model.v
theories/Metrics_Thm.v
theories/SpcMap_Model.v
theories/SpcMap_Thm.v
theories/Nonlin_Fixed_Thm.v
theories/Blas_Model.v
theories/Blas_Thm.v
theories/Decomp_Model.v
theories/Decomp_Thm.v
theories/Lapack_Model.v
theories/Lapack_Thm.v
theories/Norms_Model.v
theories/Norms_Thm.v
theories/Text_Model.v
theories/Text_Thm.v
theories/Bessel_Model.v
theories/Bessel_Thm.v
theories/Elliptic_Model.v
theories/Elliptic_Thm.v
theories/Check_Model.v
theories/Check_Thm.v
theories/Gamma_Model.v
theories/Gamma_Thm.v
theories/Erf_Model.v
theories/Erf_Thm.v
theories/LnGamma_Model.v
theories/LnGamma_Thm.v
theories/Elliptic2_Thm.v
theories/BsplineD_Model.v
theories/BsplineD_Thm.v
theories/ErrEst_Model.v
theories/ErrEst_Thm.v
theories/VecCheck_Model.v
theories/VecCheck_Thm.v
