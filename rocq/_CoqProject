-Q theories Verif

theories/Common.v
theories/Cplx.v
theories/Modes_Model.v
theories/Modes_Proofs.v
theories/Codec_Model.v
theories/Codec_Proofs.v
theories/Shuffle_Proofs.v
theories/Times_Model.v
theories/Times_Proofs.v
theories/Intersect_Proofs.v
theories/Objects_Model.v
theories/Objects_Proofs.v
theories/History_Proofs.v
theories/Modal_Model.v
theories/Modal_Proofs.v
theories/Parity_Proofs.v
theories/Ladder_Proofs.v
theories/Ops_Model.v
theories/Ops_Proofs.v
theories/Dominant_Proofs.v
theories/Validity_Model.v
theories/Validity_Proofs.v
theories/Tables_Model.v
theories/Tables_Proofs.v
theories/Numeric_Model.v
theories/Numeric_Proofs.v
theories/Transition_Model.v
theories/Transition_Proofs.v
theories/Motion_Model.v
theories/Motion_Proofs.v
theories/Extrap_Model.v
theories/Extrap_Proofs.v
theories/Quat.v
theories/Kwargs_Model.v
theories/Kwargs_Proofs.v
theories/Transform_Model.v
theories/Transform_Proofs.v
theories/ABD_Model.v
theories/ABD_Proofs.v
theories/Superrest_Model.v
theories/Superrest_Proofs.v
theories/Spin_Model.v
theories/Spin_Proofs.v
theories/Lorentz_Proofs.v
theories/BMS_Proofs.v
theories/Grid_Proofs.v
theories/Rotate_Model.v
theories/Rotate_Proofs.v
theories/Flux_Model.v
theories/Flux_Proofs.v
theories/FluxOps_Proofs.v
theories/FluxBound_Proofs.v
theories/FluxMain_Proofs.v
theories/FluxBoost_Proofs.v
theories/Store_Model.v
theories/Store_Proofs.v
theories/StoreMain_Proofs.v
theories/H5_Model.v
theories/H5Names_Proofs.v
theories/H5_Proofs.v
theories/H5Main_Proofs.v
theories/Double_Model.v
theories/Double_Proofs.v
theories/Paired_Model.v
theories/Paired_Proofs.v
theories/ABDBalance_Proofs.v
theories/ABDPointwise_Proofs.v
theories/Finite_Model.v
theories/Finite_Proofs.v
theories/Driver_Model.v
theories/Accept_Proofs.v
theories/Driver_Proofs.v
theories/Create_Model.v
theories/Create_Proofs.v
theories/Create2_Proofs.v
theories/Sxs_Model.v
theories/Sxs_Proofs.v
theories/Compare_Model.v
theories/Compare_Proofs.v
theories/Allclose_Proofs.v
theories/Lvc_Model.v
theories/Lvc_Proofs.v
theories/Wigner_Model.v
theories/Wigner_Proofs.v
theories/Align_Model.v
theories/Align_Proofs.v
theories/Corot_Model.v
theories/Corot_Proofs.v
theories/Sphere_Model.v
theories/Sphere_Proofs.v
theories/Harmonics_Proofs.v
theories/Pipeline_Model.v
theories/Pipeline_Proofs.v
theories/Abdpipe_Model.v
theories/Abdpipe_Proofs.v
theories/Rest_Model.v
theories/Rest_Proofs.v
theories/Zturn_Model.v
theories/Zturn_Proofs.v
theories/Product_Proofs.v
theories/Gridmul_Model.v
theories/Gridmul_Proofs.v
theories/Linear_Proofs.v
theories/Sample_Model.v
theories/Sample_Proofs.v
theories/Fake_Model.v
theories/Fake_Proofs.v
theories/Comfile_Model.v
theories/Comfile_Proofs.v
theories/Eth_Proofs.v
theories/Bianchi_Proofs.v
theories/Bianchimodes_Proofs.v
theories/Constraints_Model.v
theories/Constraints_Proofs.v
theories/Charges_Model.v
theories/Charges_Proofs.v
theories/Averages_Proofs.v
theories/Nonradiative_Proofs.v
theories/Passes_Model.v
theories/Passes_Proofs.v
theories/Batch_Model.v
theories/Batch_Proofs.v
theories/Bmsfile_Model.v
theories/Bmsfile_Proofs.v
theories/Parframe_Model.v
theories/Parframe_Proofs.v
theories/Target_Model.v
theories/Target_Proofs.v
theories/Target_Cases.v
theories/Velocity_Model.v
theories/Velocity_Proofs.v
theories/Resterr_Model.v
theories/Resterr_Proofs.v
theories/Aim_Model.v
theories/Aim_Proofs.v
theories/Follow_Model.v
theories/Follow_Proofs.v
theories/Precess_Model.v
theories/Precess_Proofs.v
theories/Random_Model.v
theories/Random_Proofs.v
theories/Diffout_Model.v
theories/Diffout_Proofs.v
theories/Saved_Model.v
theories/Saved_Proofs.v
theories/Phase_Model.v
theories/Phase_Proofs.v
theories/Spline_Model.v
theories/Spline_Proofs.v
theories/Splineuse_Proofs.v
theories/Simpson_Model.v
theories/Simpson_Proofs.v
theories/Polyfit_Model.v
theories/Polyfit_Proofs.v
