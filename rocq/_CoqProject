-Q theories Verif
theories/Base.v
theories/L_Alg.v
theories/L_Base.v
theories/L_Deflate.v
theories/L_Eigen.v
theories/L_FFT.v
theories/L_Float.v
theories/L_Fuel.v
theories/L_Heap.v
theories/L_Linalg.v
theories/L_Mat.v
theories/L_MatR.v
theories/L_Matrix.v
theories/L_Order.v
theories/L_Poly.v
theories/L_SavGol.v
theories/L_Serial.v
theories/L_Sort.v
theories/L_Sort2.v
theories/L_Stats.v
theories/L_Text.v
theories/L_Transform.v
theories/M_FFT.v
theories/M_Factory.v
theories/M_GLSW.v
theories/M_Heap.v
theories/M_Helper.v
theories/M_Kernel.v
theories/M_Linalg.v
theories/M_Loop.v
theories/M_MSC.v
theories/M_Matrix.v
theories/M_PLS.v
theories/M_PLS2.v
theories/M_PLSBase.v
theories/M_SavGol.v
theories/M_Serial.v
theories/M_Transform.v
theories/M_Utils.v
theories/Mat.v
theories/Num.v
theories/P_Eigen.v
theories/P_FFT.v
theories/P_Filter.v
theories/P_GLSW.v
theories/P_Heap.v
theories/P_Helper.v
theories/P_Kernel.v
theories/P_Linalg.v
theories/P_MSC.v
theories/P_Matrix.v
theories/P_Matrix2.v
theories/P_NIPALS.v
theories/P_OPLS.v
theories/P_PLS1.v
theories/P_PLSBase.v
theories/P_PLSLaws.v
theories/P_PLSPrep.v
theories/P_PLSRefute.v
theories/P_PRM.v
theories/P_SIMPLS.v
theories/P_SavGol.v
theories/P_Serial.v
theories/P_Sparse.v
theories/P_Transform.v
theories/P_Utils.v
theories/S_Matrix.v
theories/S_Serial.v
theories/M_PCA.v
theories/P_PCA.v
theories/M_CCAFilter.v
theories/P_CCAFilter.v
theories/M_FastICA.v
theories/P_FastICA.v
theories/L_Krylov.v
theories/L_Public.v
theories/P_SIMPLS2.v
theories/L_Span.v
theories/P_NIPALS2.v
theories/P_KernelPLS.v
theories/P_KernelPLS2.v
theories/P_KernelPLS3.v
theories/P_YGrad.v
theories/P_VCPLS.v
theories/L_Spectral.v
theories/P_Spectral.v
theories/L_DIPLS.v
theories/L_DIPLS2.v
theories/P_DIPLS.v
theories/P_Median.v
theories/L_PRM.v
theories/P_Weiszfeld.v
theories/P_PRM2.v
theories/P_PRM3.v
theories/P_PRM4.v
theories/P_Sparse2.v
theories/L_Batch.v
theories/P_Batch.v
theories/P_Batch2.v
theories/M_Publish.v
theories/P_Publish.v
theories/L_Perm.v
theories/P_Perm.v
theories/P_Perm2.v
theories/P_Units.v
theories/P_Units2.v
theories/M_Distance.v
theories/M_Wrappers.v
theories/P_Wrappers.v
theories/P_Small.v
theories/P_Geometry.v
theories/P_OLS.v
theories/L_Affine.v
theories/P_Affine.v
theories/P_Affine2.v
theories/P_Repeat.v
theories/P_Units3.v
theories/P_Geometry2.v
theories/P_Geometry3.v
theories/P_Order.v
theories/P_Order2.v
theories/P_Concat.v
