-Q theories Verif
theories/Base.v
theories/Sha256_Model.v
theories/Sha256_Spec.v
theories/Sha256_Proofs.v
theories/Sha256_Hex.v
theories/Sha256_Props.v
theories/Adsb_Model.v
theories/Adsb_Spec.v
theories/Adsb_Crc.v
theories/Adsb_Weight.v
theories/Adsb_Proofs.v
theories/Adsb_Props.v
theories/Cpr_Model.v
theories/Cpr_Spec.v
theories/Cpr_Nl.v
theories/Cpr_Proofs.v
theories/Cpr_Props.v
theories/Text.v
theories/DecFloat.v
theories/Tle_Model.v
theories/Tle_Spec.v
theories/Tle_Proofs.v
theories/Tle_Fields.v
theories/Tle_Roundtrip.v
theories/Tle_Props.v
theories/Omm_Model.v
theories/Omm_Proofs.v
theories/Omm_Props.v
theories/Daf_Model.v
theories/Daf_Spec.v
theories/Daf_Proofs.v
theories/Daf_Props.v
theories/Spk_Model.v
theories/Spk_Spec.v
theories/Spk_Proofs.v
theories/Spk_Props.v
theories/Graph.v
theories/Kern_Model.v
theories/Kern_Spec.v
theories/Kern_Proofs.v
theories/Kern_Props.v
theories/Ssb_Model.v
theories/Ssb_Spec.v
theories/Ssb_Proofs.v
theories/Ssb_Props.v
theories/Stack_Props.v
theories/Tk_Model.v
theories/Tk_Spec.v
theories/Tk_Proofs.v
theories/Tk_Props.v
theories/Sort.v
theories/Fnum.v
theories/Lsk_Model.v
theories/Lsk_Spec.v
theories/Lsk_Proofs.v
theories/Lsk_Props.v
theories/Sclk_Model.v
theories/Sclk_Spec.v
theories/Sclk_Proofs.v
theories/Sclk_Props.v
theories/Poly.v
theories/Seg_Model.v
theories/Seg_Spec.v
theories/Seg_Proofs.v
theories/Seg_Props.v
theories/Qb.v
theories/Root_Model.v
theories/Root_Spec.v
theories/Root_Proofs.v
theories/Root_Props.v
theories/Cross_Model.v
theories/Cross_Spec.v
theories/Cross_Proofs.v
theories/Range_Proofs.v
theories/Cross_Props.v
theories/Ext_Model.v
theories/Ext_Spec.v
theories/Ext_Proofs.v
theories/Ext_Props.v
theories/Eop_Model.v
theories/Eop_Proofs.v
theories/Eop_Props.v
theories/Sky_Model.v
theories/Sky_Proofs.v
theories/Sky_Props.v
theories/Lin.v
theories/Est_Model.v
theories/Est_Proofs.v
theories/Est_Props.v
theories/Sp3_Model.v
theories/Sp3_Proofs.v
theories/Sp3_Write.v
theories/Sp3_Props.v
theories/Sck_Model.v
theories/Sck_Proofs.v
theories/Sck_Props.v
theories/Ck_Model.v
theories/Ck_Proofs.v
theories/Slerp_Model.v
theories/Slerp_Proofs.v
theories/Ck_Props.v
theories/Fk_Model.v
theories/Pck_Model.v
theories/Ik_Model.v
theories/Mat3.v
theories/Ctx_Model.v
theories/Fk_Proofs.v
theories/Pck_Proofs.v
theories/Ik_Proofs.v
theories/Fk_Props.v
theories/Pck_Props.v
theories/Ik_Props.v
theories/Ctx_Proofs.v
theories/Ctx_Load.v
theories/Ctx_Props.v
theories/Xml_Model.v
theories/Xml_Proofs.v
theories/Kvn_Proofs.v
theories/Xml_Props.v
theories/Oem_Model.v
theories/Cal_Proofs.v
theories/Oem_Epoch.v
theories/Oem_Proofs.v
theories/Oem_Write.v
theories/Oem_Props.v
theories/Opm_Model.v
theories/Opm_Proofs.v
theories/Tdm_Model.v
theories/Tdm_Proofs.v
theories/Tdm_Write.v
theories/Ccsds_Props.v
theories/Noise_Model.v
theories/Noise_Proofs.v
theories/Noise_Psd.v
theories/Noise_Props.v
theories/Ang.v
theories/Phase_Model.v
theories/Phase_Proofs.v
theories/Phase_Props.v
theories/Conic_Model.v
theories/Conic_Proofs.v
theories/Conic_Props.v
theories/Tkx_Props.v
theories/Sweep_Model.v
theories/Sweep_Spec.v
theories/Sweep_Proofs.v
theories/Sweep_Props.v
theories/Daily_Model.v
theories/Daily_Spec.v
theories/Daily_Proofs.v
theories/Daily_Sky.v
theories/Daily_Props.v
theories/Azim_Model.v
theories/Azim_Proofs.v
theories/Azim_Props.v
theories/Horiz_Model.v
theories/Horiz_Proofs.v
theories/Horiz_Props.v
theories/Geom_Model.v
theories/Geom_Proofs.v
theories/Geom_Lens.v
theories/Geom_Mask.v
theories/Geom_Props.v
theories/Jpl_Model.v
theories/Jpl_Proofs.v
theories/Jpl_Props.v
theories/Lag_Model.v
theories/Lag_Proofs.v
theories/Cheb.v
theories/Lag_Props.v
theories/Moon_Model.v
theories/Moon_Proofs.v
theories/Moon_Props.v
theories/Earth_Model.v
theories/Earth_Proofs.v
theories/Earth_Props.v
theories/Force_Model.v
theories/Force_Proofs.v
theories/Force_Props.v
theories/Place_Model.v
theories/Place_Proofs.v
theories/Place_Props.v
theories/Ilrs_Model.v
theories/Ilrs_Cal.v
theories/Ilrs_Spec.v
theories/Ilrs_Proofs.v
theories/Ilrs_Files.v
theories/Ilrs_Write.v
theories/Ilrs_Props.v
theories/Obs_Model.v
theories/Obs_Proofs.v
theories/Obs_Props.v
theories/Nav_Model.v
theories/Nav_Spec.v
theories/Nav_Proofs.v
theories/Nav_Write.v
theories/Nav_Props.v
theories/Igs_Model.v
theories/Igs_Spec.v
theories/Igs_Proofs.v
theories/Igs_Orbex.v
theories/Igs_Antex.v
theories/Igs_Doris.v
theories/Igs_Props.v
theories/Series_Model.v
theories/Series_Props.v
theories/Ffi_Model.v
theories/Ffi_Proofs.v
theories/Ffi_Props.v
theories/Abi_Model.v
theories/Abi_Props.v
theories/Qc_Model.v
theories/Qc_Proofs.v
theories/Qc_Props.v
theories/Fit_Model.v
theories/Fit_Props.v
theories/Arc_Props.v
theories/Sgp_Model.v
theories/Sgp_Proofs.v
theories/Sgp_Props.v
theories/Stareq_Model.v
theories/Stareq_Proofs.v
theories/Stareq_Props.v
theories/Cfg_Model.v
theories/Cfg_Props.v
theories/Run_Props.v
theories/Prod_Model.v
theories/Prod_Props.v
theories/Air_Model.v
theories/Air_Props.v
theories/Haze_Props.v
theories/Cat_Model.v
theories/Cat_Props.v
theories/Csv_Model.v
theories/Csv_Props.v
theories/Dyn_Model.v
theories/Lum_Model.v
theories/Dyn_Props.v
theories/Luna_Model.v
theories/Luna_Props.v
theories/Nut_Model.v
theories/Nut_Props.v
theories/Body_Model.v
theories/Body_Props.v
theories/Solar_Model.v
theories/Solar_Props.v
theories/Bearing_Model.v
theories/Bearing_Props.v
theories/Rk4_Model.v
theories/Rk4_Props.v
theories/Mission_Model.v
theories/Mission_Props.v
theories/Prov_Model.v
theories/Prov_Props.v
theories/OemXml_Model.v
theories/OemXml_Proofs.v
theories/OemXml_Props.v
theories/Robs_Model.v
theories/Robs_Proofs.v
theories/Robs_Props.v
theories/Motion_Model.v
theories/Motion_Proofs.v
theories/Motion_Props.v
theories/Seed_Model.v
theories/Seed_Proofs.v
theories/Seed_Props.v
theories/Culm_Model.v
theories/Culm_Props.v
theories/Label_Model.v
theories/Label_Props.v
theories/Prep_Model.v
theories/Prep_Props.v
