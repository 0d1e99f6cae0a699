-Q theories Verif
theories/CBase.v
theories/NdArray.v
theories/Interp_Model.v
theories/Synth_Model.v
theories/Synth_Spec.v
theories/Synth_Proofs.v
theories/Synth_Laws.v
theories/Rmsf_Proofs.v
theories/Synth_Refute.v
theories/Synth_Properties.v
theories/PyRes.v
theories/PyList.v
theories/PyList_Proofs.v
theories/Clean_Model.v
theories/Clean_Spec.v
theories/Clean_Proofs.v
theories/Clean_Cube.v
theories/Clean_Laws.v
theories/StokesI_Model.v
theories/CleanTop_Model.v
theories/Clean_Grid.v
theories/Clean_More.v
theories/Rmsf_Peak.v
theories/Clean_Total.v
theories/Clean_Properties.v
theories/StokesI_Spec.v
theories/StokesI_Proofs.v
theories/StokesI_Fit.v
theories/StokesI_Properties.v
theories/Setup_Model.v
theories/Setup_Spec.v
theories/Setup_Proofs.v
theories/Setup_Properties.v
theories/PyStr.v
theories/PyStr_Proofs.v
theories/Chunk_Model.v
theories/Chunk_Spec.v
theories/Chunk_Proofs.v
theories/Chunk_Laws.v
theories/Chunk_Properties.v
theories/NdIndex.v
theories/Cube_Model.v
theories/Cube_Spec.v
theories/Cube_Proofs.v
theories/Cube_Laws.v
theories/Peak_Proofs.v
theories/Region_Model.v
theories/Region_Spec.v
theories/Region_Proofs.v
theories/Header_Model.v
theories/Header_Spec.v
theories/Header_Proofs.v
theories/Cube_Properties.v
theories/Measure_Model.v
theories/Measure_Spec.v
theories/Median_Proofs.v
theories/Measure_Proofs.v
theories/Measure_Laws.v
theories/Sigma_Proofs.v
theories/Measure_Refute.v
theories/Measure_Properties.v
theories/QU_Model.v
theories/QU_Spec.v
theories/QU_Proofs.v
theories/QU_Laws.v
theories/QU_Bounds.v
theories/QU_Like.v
theories/QU_Extra.v
theories/Sim_Proofs.v
theories/QU_Properties.v
theories/Bw_Model.v
theories/Bw_Spec.v
theories/Bw_Rot.v
theories/Bw_Proofs.v
theories/Bw_Laws.v
theories/Bw_Run.v
theories/Bw_More.v
theories/Bw_Properties.v
theories/Run1D_Model.v
theories/Run1D_Spec.v
theories/Run1D_Proofs.v
theories/Run1D_Laws.v
theories/Run1D_Total.v
theories/Run1D_Fits.v
theories/Run1D_Refute.v
theories/Run1D_Meas.v
theories/Run1D_Properties.v
theories/Pixfit_Model.v
theories/Pixfit_Spec.v
theories/Pixfit_Proofs.v
theories/Pixfit_Laws.v
theories/Pixfit_Files.v
theories/Pixfit_More.v
theories/Pixfit_Properties.v
theories/Run3D_Model.v
theories/Run3D_Spec.v
theories/Run3D_Proofs.v
theories/Run3D_Laws.v
theories/Run3D_Total.v
theories/Run3D_Thin.v
theories/Run3D_Same.v
theories/Run3D_Refute.v
theories/Run3D_Examples.v
theories/Run3D_Properties.v
theories/Icube_Model.v
theories/Icube_Spec.v
theories/Icube_Proofs.v
theories/Icube_Fit.v
theories/Icube_Rescale.v
theories/Icube_Maps.v
theories/Icube_Refute.v
theories/Icube_Examples.v
theories/Icube_Properties.v
theories/Cat_Model.v
theories/Cat_Spec.v
theories/Cat_Text.v
theories/Cat_Rows.v
theories/Cat_Cube.v
theories/Cat_Run.v
theories/Cat_Run1.v
theories/Cat_Refute.v
theories/Cat_Examples.v
theories/Cat_Properties.v
theories/Mp_Model.v
theories/Mp_Spec.v
theories/Mp_Sums.v
theories/Mp_QR.v
theories/Mp_Solve.v
theories/Mp_Givens.v
theories/Mp_Step.v
theories/Mp_Covar.v
theories/Mp_Refute.v
theories/Mp_Run.v
theories/Mp_Fit.v
theories/Mp_Linear.v
theories/Mp_Exact.v
theories/Mp_Algebra.v
theories/MpI_Model.v
theories/MpI_Spec.v
theories/MpI_Proofs.v
theories/Mp_Examples.v
theories/Mp_Properties.v
theories/Cl1_Model.v
theories/Cl1_Spec.v
theories/Cl1_Proofs.v
theories/Cl1_Thin.v
theories/Cl1_Pred.v
theories/Cl1_Example.v
theories/Cl1_Properties.v
theories/Ref_Spec.v
theories/Ref_Model.v
theories/Ref_Proofs.v
theories/Ref_Dep.v
theories/Ref_Clean.v
theories/Ref_Noise.v
theories/Ref_Example.v
theories/Ref_Width.v
theories/Ref_Properties.v
theories/Lobe_Spec.v
theories/Lobe_Model.v
theories/Lobe_Proofs.v
theories/Lobe_Fit.v
theories/Lobe_Example.v
theories/Lobe_Properties.v
theories/Rep_Spec.v
theories/Rep_Model.v
theories/Rep_Proofs.v
theories/Rep_Report.v
theories/Rep_Default.v
theories/Rep_Example.v
theories/Rep_Properties.v
theories/Qrun_Flat.v
theories/Qrun_Model.v
theories/Qrun_Spec.v
theories/Qrun_Proofs.v
theories/Qrun_Report.v
theories/Qrun_Fit.v
theories/Qrun_Example.v
theories/Qrun_Properties.v
theories/Run1D_FlatSpec.v
theories/Run1D_Flat.v
theories/Run1D_FlatProperties.v
theories/Fl_Model.v
theories/Fl_Spec.v
theories/Fl_Proofs.v
theories/Fl_Synth.v
theories/Fl_Laws.v
theories/Fl_Float.v
theories/Fl_Single.v
theories/Fl_Refute.v
theories/Fl_Properties.v
theories/Fits_Model.v
theories/Fits_Spec.v
theories/Fits_Proofs.v
theories/Fits_Beam.v
theories/Fits_Sub.v
theories/Fits_Refute.v
theories/Fits_Properties.v
theories/Cf_Arith.v
theories/Cf_Model.v
theories/Cf_Spec.v
theories/Cf_Round.v
theories/Cf_Proofs.v
theories/Cf_Single.v
theories/Cf_Float.v
theories/Cf_Properties.v
theories/Hd_Model.v
theories/Hd_Spec.v
theories/Hd_Proofs.v
theories/Hd_More.v
theories/Hd_Rest.v
theories/Hd_Fit.v
theories/Hd_Refute.v
theories/Hd_Properties.v
theories/Sx_Model.v
theories/Sx_Spec.v
theories/Sx_Proofs.v
theories/Sx_Properties.v
theories/Pl_Model.v
theories/Pl_Spec.v
theories/Pl_Proofs.v
theories/Pl_More.v
theories/Pl_Properties.v
theories/Fq_Model.v
theories/Fq_Spec.v
theories/Fq_Proofs.v
theories/Fq_Files.v
theories/Fq_Main.v
theories/Fq_Properties.v
theories/Fg_Model.v
theories/Fg_Spec.v
theories/Fg_Proofs.v
theories/Fg_Angles.v
theories/Fg_Depth.v
theories/Fg_Properties.v
theories/Td_Model.v
theories/Td_Spec.v
theories/Td_Beam.v
theories/Td_Proofs.v
theories/Td_Main.v
theories/Td_Final.v
theories/Td_Properties.v
theories/Hp_Model.v
theories/Hp_Spec.v
theories/Hp_Config.v
theories/Hp_Text.v
theories/Hp_Sort.v
theories/Hp_Rest.v
theories/Hp_Properties.v
theories/Cl_Model.v
theories/Cl_Spec.v
theories/Cl_Words.v
theories/Cl_Parse.v
theories/Cl_Line.v
theories/Cl_Block.v
theories/Cl_Tools.v
theories/Cl_More.v
theories/Cl_Properties.v
theories/Mpl_Model.v
theories/Mpl_Spec.v
theories/Mpl_Run.v
theories/Mpl_Limits.v
theories/Mpl_More.v
theories/Mpl_Plain.v
theories/Mpl_Refute.v
theories/Mpl_Deriv.v
theories/Mpl_Properties.v
