(** Members of the parts of the output quantities, in the order of the source:
    output_quantities.h (members), output_quantities.cc:55-1141 (WriteTo, LoadInto).
    Line numbers of the functions beside each part. *)
From Coq Require Import List String.
From Verif Require Import HdfModel.
Import ListNotations.
Open Scope string_scope.

(** VmecInternalResults, WriteTo at line 56, LoadInto at line 125 *)
Definition vmec_internal_results_members : list string := ["sign_of_jacobian"; "num_full"; "num_half"; "nZnT_reduced"; "sqrtSH"; "sqrtSF"; "sm"; "sp"; "phipF"; "chipF"; "phipH"; "chipH"; "currH"; "phiF"; "iotaF"; "spectral_width"; "bvcoH"; "dVdsH"; "massH"; "presH"; "iotaH"; "rmncc"; "rmnss"; "rmnsc"; "rmncs"; "zmnsc"; "zmncs"; "zmncc"; "zmnss"; "lmnsc"; "lmncs"; "lmncc"; "lmnss"; "r_e"; "r_o"; "z_e"; "z_o"; "ru_e"; "ru_o"; "zu_e"; "zu_o"; "rv_e"; "rv_o"; "zv_e"; "zv_o"; "ruFull"; "zuFull"; "r12"; "ru12"; "zu12"; "rs"; "zs"; "gsqrt"; "guu"; "guv"; "gvv"; "bsupu"; "bsupv"; "bsubu"; "bsubv"; "bsubvF"; "total_pressure"; "currv"].
Definition vmec_internal_results_part : part := mkPart "/vmec_internal_results"
  ["sign_of_jacobian"; "num_full"; "num_half"; "nZnT_reduced"; "sqrtSH"; "sqrtSF"; "sm"; "sp"; "phipF"; "chipF"; "phipH"; "chipH"; "currH"; "phiF"; "iotaF"; "spectral_width"; "bvcoH"; "dVdsH"; "massH"; "presH"; "iotaH"; "rmncc"; "rmnss"; "rmnsc"; "rmncs"; "zmnsc"; "zmncs"; "zmncc"; "zmnss"; "lmnsc"; "lmncs"; "lmncc"; "lmnss"; "r_e"; "r_o"; "z_e"; "z_o"; "ru_e"; "ru_o"; "zu_e"; "zu_o"; "rv_e"; "rv_o"; "zv_e"; "zv_o"; "ruFull"; "zuFull"; "r12"; "ru12"; "zu12"; "rs"; "zs"; "gsqrt"; "guu"; "guv"; "gvv"; "bsupu"; "bsupv"; "bsubu"; "bsubv"; "bsubvF"; "total_pressure"; "currv"]
  [Rd "sign_of_jacobian"; Rd "num_full"; Rd "num_half"; Rd "nZnT_reduced"; Rd "sqrtSH"; Rd "sqrtSF"; Rd "sm"; Rd "sp"; Rd "phipF"; Rd "chipF"; Rd "phipH"; RdZ "chipH" "phipH"; RdZ "currH" "phipH"; Rd "phiF"; Rd "iotaF"; Rd "spectral_width"; Rd "bvcoH"; Rd "dVdsH"; Rd "massH"; Rd "presH"; Rd "iotaH"; Rd "rmncc"; Rd "rmnss"; Rd "rmnsc"; Rd "rmncs"; Rd "zmnsc"; Rd "zmncs"; Rd "zmncc"; Rd "zmnss"; Rd "lmnsc"; Rd "lmncs"; Rd "lmncc"; Rd "lmnss"; Rd "r_e"; Rd "r_o"; Rd "z_e"; Rd "z_o"; Rd "ru_e"; Rd "ru_o"; Rd "zu_e"; Rd "zu_o"; Rd "rv_e"; Rd "rv_o"; Rd "zv_e"; Rd "zv_o"; Rd "ruFull"; Rd "zuFull"; Rd "r12"; Rd "ru12"; Rd "zu12"; Rd "rs"; Rd "zs"; Rd "gsqrt"; Rd "guu"; Rd "guv"; Rd "gvv"; Rd "bsupu"; Rd "bsupv"; Rd "bsubu"; Rd "bsubv"; Rd "bsubvF"; Rd "total_pressure"; Rd "currv"].

(** RemainingMetric, WriteTo at line 208, LoadInto at line 220 *)
Definition remaining_metric_members : list string := ["rv12"; "zv12"; "rs12"; "zs12"; "gsu"; "gsv"].
Definition remaining_metric_part : part := mkPart "/remaining_metric"
  ["rv12"; "zv12"; "rs12"; "zs12"; "gsu"; "gsv"]
  [Rd "rv12"; Rd "zv12"; Rd "rs12"; Rd "zs12"; Rd "gsu"; Rd "gsv"].

(** CylindricalComponentsOfB, WriteTo at line 232, LoadInto at line 241 *)
Definition cylindrical_components_of_b_members : list string := ["b_r"; "b_phi"; "b_z"].
Definition cylindrical_components_of_b_part : part := mkPart "/cylindrical_components_of_b"
  ["b_r"; "b_phi"; "b_z"]
  [Rd "b_r"; Rd "b_phi"; Rd "b_z"].

(** BSubSHalf, WriteTo at line 250, LoadInto at line 256 *)
Definition bsubs_half_members : list string := ["bsubs_half"].
Definition bsubs_half_part : part := mkPart "/bsubs_half"
  ["bsubs_half"]
  [Rd "bsubs_half"].

(** BSubSFull, WriteTo at line 262, LoadInto at line 268 *)
Definition bsubs_full_members : list string := ["bsubs_full"].
Definition bsubs_full_part : part := mkPart "/bsubs_full"
  ["bsubs_full"]
  [Rd "bsubs_full"].

(** CovariantBDerivatives, WriteTo at line 274, LoadInto at line 284 *)
Definition covariant_b_derivatives_members : list string := ["bsubsu"; "bsubsv"; "bsubuv"; "bsubvu"].
Definition covariant_b_derivatives_part : part := mkPart "/covariant_b_derivatives"
  ["bsubsu"; "bsubsv"; "bsubuv"; "bsubvu"]
  [Rd "bsubsu"; Rd "bsubsv"; Rd "bsubuv"; Rd "bsubvu"].

(** JxBOutFileContents, WriteTo at line 294, LoadInto at line 324 *)
Definition jxbout_members : list string := ["itheta"; "izeta"; "bdotk"; "amaxfor"; "aminfor"; "avforce"; "pprim"; "jdotb"; "bdotb"; "bdotgradv"; "jpar2"; "jperp2"; "phin"; "jsupu3"; "jsupv3"; "jsups3"; "bsupu3"; "bsupv3"; "jcrossb"; "jxb_gradp"; "jdotb_sqrtg"; "sqrtg3"; "bsubu3"; "bsubv3"; "bsubs3"].
Definition jxbout_part : part := mkPart "/jxbout"
  ["itheta"; "izeta"; "bdotk"; "amaxfor"; "aminfor"; "avforce"; "pprim"; "jdotb"; "bdotb"; "bdotgradv"; "jpar2"; "jperp2"; "phin"; "jsupu3"; "jsupv3"; "jsups3"; "bsupu3"; "bsupv3"; "jcrossb"; "jxb_gradp"; "jdotb_sqrtg"; "sqrtg3"; "bsubu3"; "bsubv3"; "bsubs3"]
  [Rd "itheta"; Rd "izeta"; Rd "bdotk"; Rd "amaxfor"; Rd "aminfor"; Rd "avforce"; Rd "pprim"; Rd "jdotb"; Rd "bdotb"; Rd "bdotgradv"; Rd "jpar2"; Rd "jperp2"; Rd "phin"; Rd "jsupu3"; Rd "jsupv3"; Rd "jsups3"; Rd "bsupu3"; Rd "bsupv3"; Rd "jcrossb"; Rd "jxb_gradp"; Rd "jdotb_sqrtg"; Rd "sqrtg3"; Rd "bsubu3"; Rd "bsubv3"; Rd "bsubs3"].

(** MercierStabilityIntermediateQuantities, WriteTo at line 354, LoadInto at line 377 *)
Definition mercier_intermediate_members : list string := ["s"; "shear"; "vpp"; "d_pressure_d_s"; "d_toroidal_current_d_s"; "phip_realH"; "phip_realF"; "vp_real"; "torcur"; "gsqrt_full"; "bdotj"; "gpp"; "b2"; "tpp"; "tbb"; "tjb"; "tjj"].
Definition mercier_intermediate_part : part := mkPart "/mercier_intermediate"
  ["s"; "shear"; "vpp"; "d_pressure_d_s"; "d_toroidal_current_d_s"; "phip_realH"; "phip_realF"; "vp_real"; "torcur"; "gsqrt_full"; "bdotj"; "gpp"; "b2"; "tpp"; "tbb"; "tjb"; "tjj"]
  [Rd "s"; Rd "shear"; Rd "vpp"; Rd "d_pressure_d_s"; Rd "d_toroidal_current_d_s"; Rd "phip_realH"; Rd "phip_realF"; Rd "vp_real"; Rd "torcur"; Rd "gsqrt_full"; Rd "bdotj"; Rd "gpp"; Rd "b2"; Rd "tpp"; Rd "tbb"; Rd "tjb"; Rd "tjj"].

(** MercierFileContents, WriteTo at line 399, LoadInto at line 419 *)
Definition mercier_members : list string := ["s"; "toroidal_flux"; "iota"; "shear"; "d_volume_d_s"; "well"; "toroidal_current"; "d_toroidal_current_d_s"; "pressure"; "d_pressure_d_s"; "DMerc"; "Dshear"; "Dwell"; "Dcurr"; "Dgeod"].
Definition mercier_part : part := mkPart "/mercier"
  ["s"; "toroidal_flux"; "iota"; "shear"; "d_volume_d_s"; "well"; "toroidal_current"; "d_toroidal_current_d_s"; "pressure"; "d_pressure_d_s"; "DMerc"; "Dshear"; "Dwell"; "Dcurr"; "Dgeod"]
  [Rd "s"; Rd "toroidal_flux"; Rd "iota"; Rd "shear"; Rd "d_volume_d_s"; Rd "well"; Rd "toroidal_current"; Rd "d_toroidal_current_d_s"; Rd "pressure"; Rd "d_pressure_d_s"; Rd "DMerc"; Rd "Dshear"; Rd "Dwell"; Rd "Dcurr"; Rd "Dgeod"].

(** Threed1FirstTableIntermediate, WriteTo at line 439, LoadInto at line 463 *)
Definition threed1_first_table_intermediate_members : list string := ["tau"; "beta_vol"; "overr"; "beta_axis"; "presf"; "phipf_loc"; "phi1"; "chi1"; "chi"; "bvcoH"; "bucoH"; "jcurv"; "jcuru"; "presgrad"; "vpphi"; "equif"; "bucof"; "bvcof"].
Definition threed1_first_table_intermediate_part : part := mkPart "/threed1_first_table_intermediate"
  ["tau"; "beta_vol"; "overr"; "beta_axis"; "presf"; "phipf_loc"; "phi1"; "chi1"; "chi"; "bvcoH"; "bucoH"; "jcurv"; "jcuru"; "presgrad"; "vpphi"; "equif"; "bucof"; "bvcof"]
  [Rd "tau"; Rd "beta_vol"; Rd "overr"; Rd "beta_axis"; Rd "presf"; Rd "phipf_loc"; Rd "phi1"; Rd "chi1"; Rd "chi"; Rd "bvcoH"; Rd "bucoH"; Rd "jcurv"; Rd "jcuru"; Rd "presgrad"; Rd "vpphi"; Rd "equif"; Rd "bucof"; Rd "bvcof"].

(** Threed1FirstTable, WriteTo at line 486, LoadInto at line 505 *)
Definition threed1_first_table_members : list string := ["s"; "radial_force"; "toroidal_flux"; "iota"; "avg_jsupu"; "avg_jsupv"; "d_volume_d_phi"; "d_pressure_d_phi"; "spectral_width"; "pressure"; "buco_full"; "bvco_full"; "j_dot_b"; "b_dot_b"].
Definition threed1_first_table_part : part := mkPart "/threed1_first_table"
  ["s"; "radial_force"; "toroidal_flux"; "iota"; "avg_jsupu"; "avg_jsupv"; "d_volume_d_phi"; "d_pressure_d_phi"; "spectral_width"; "pressure"; "buco_full"; "bvco_full"; "j_dot_b"; "b_dot_b"]
  [Rd "s"; Rd "radial_force"; Rd "toroidal_flux"; Rd "iota"; Rd "avg_jsupu"; Rd "avg_jsupv"; Rd "d_volume_d_phi"; Rd "d_pressure_d_phi"; Rd "spectral_width"; Rd "pressure"; Rd "buco_full"; Rd "bvco_full"; Rd "j_dot_b"; Rd "b_dot_b"].

(** Threed1GeometricAndMagneticQuantitiesIntermediate, WriteTo at line 524, LoadInto at line 562 *)
Definition threed1_geometric_and_magnetic_quantities_intermediate_members : list string := ["anorm"; "vnorm"; "surf_area"; "circumference_sum"; "rcenin"; "aminr2in"; "bminz2in"; "bminz2"; "sump"; "btor_vac"; "btor1"; "dbtor"; "phat"; "redge"; "delphid_exact"; "musubi"; "rshaf1"; "rshaf2"; "rshaf"; "fpsi0"; "sumbtot"; "sumbtor"; "sumbpol"; "sump20"; "sump2"; "jPS2"; "jpar_perp_sum"; "jparPS_perp_sum"; "s2"; "fac"; "r3v"].
Definition threed1_geometric_and_magnetic_quantities_intermediate_part : part := mkPart "/threed1_geometric_and_magnetic_quantities_intermediate"
  ["anorm"; "vnorm"; "surf_area"; "circumference_sum"; "rcenin"; "aminr2in"; "bminz2in"; "bminz2"; "sump"; "btor_vac"; "btor1"; "dbtor"; "phat"; "redge"; "delphid_exact"; "musubi"; "rshaf1"; "rshaf2"; "rshaf"; "fpsi0"; "sumbtot"; "sumbtor"; "sumbpol"; "sump20"; "sump2"; "jPS2"; "jpar_perp_sum"; "jparPS_perp_sum"; "s2"; "fac"; "r3v"]
  [Rd "anorm"; Rd "vnorm"; Rd "surf_area"; Rd "circumference_sum"; Rd "rcenin"; Rd "aminr2in"; Rd "bminz2in"; Rd "bminz2"; Rd "sump"; Rd "btor_vac"; Rd "btor1"; Rd "dbtor"; Rd "phat"; Rd "redge"; Rd "delphid_exact"; Rd "musubi"; Rd "rshaf1"; Rd "rshaf2"; Rd "rshaf"; Rd "fpsi0"; Rd "sumbtot"; Rd "sumbtor"; Rd "sumbpol"; Rd "sump20"; Rd "sump2"; Rd "jPS2"; Rd "jpar_perp_sum"; Rd "jparPS_perp_sum"; Rd "s2"; Rd "fac"; Rd "r3v"].

(** Threed1GeometricAndMagneticQuantities, WriteTo at line 599, LoadInto at line 644 *)
Definition threed1_geometric_and_magnetic_quantities_members : list string := ["toroidal_flux"; "circum_p"; "surf_area_p"; "cross_area_p"; "volume_p"; "Rmajor_p"; "Aminor_p"; "aspect"; "kappa_p"; "rcen"; "aminr1"; "pavg"; "factor"; "b0"; "rmax_surf"; "rmin_surf"; "zmax_surf"; "bmin"; "bmax"; "waist"; "height"; "betapol"; "betatot"; "betator"; "VolAvgB"; "IonLarmor"; "jpar_perp"; "jparPS_perp"; "toroidal_current"; "rbtor"; "rbtor0"; "psi"; "ygeo"; "yinden"; "yellip"; "ytrian"; "yshift"; "loc_jpar_perp"; "loc_jparPS_perp"].
Definition threed1_geometric_and_magnetic_quantities_part : part := mkPart "/threed1_geometric_and_magnetic_quantities"
  ["toroidal_flux"; "circum_p"; "surf_area_p"; "cross_area_p"; "volume_p"; "Rmajor_p"; "Aminor_p"; "aspect"; "kappa_p"; "rcen"; "aminr1"; "pavg"; "factor"; "b0"; "rmax_surf"; "rmin_surf"; "zmax_surf"; "bmin"; "bmax"; "waist"; "height"; "betapol"; "betatot"; "betator"; "VolAvgB"; "IonLarmor"; "jpar_perp"; "jparPS_perp"; "toroidal_current"; "rbtor"; "rbtor0"; "psi"; "ygeo"; "yinden"; "yellip"; "ytrian"; "yshift"; "loc_jpar_perp"; "loc_jparPS_perp"]
  [Rd "toroidal_flux"; Rd "circum_p"; Rd "surf_area_p"; Rd "cross_area_p"; Rd "volume_p"; Rd "Rmajor_p"; Rd "Aminor_p"; Rd "aspect"; Rd "kappa_p"; Rd "rcen"; Rd "aminr1"; Rd "pavg"; Rd "factor"; Rd "b0"; Rd "rmax_surf"; Rd "rmin_surf"; Rd "zmax_surf"; Rd "bmin"; Rd "bmax"; Rd "waist"; Rd "height"; Rd "betapol"; Rd "betatot"; Rd "betator"; Rd "VolAvgB"; Rd "IonLarmor"; Rd "jpar_perp"; Rd "jparPS_perp"; Rd "toroidal_current"; Rd "rbtor"; Rd "rbtor0"; Rd "psi"; Rd "ygeo"; Rd "yinden"; Rd "yellip"; Rd "ytrian"; Rd "yshift"; Rd "loc_jpar_perp"; Rd "loc_jparPS_perp"].

(** Threed1Volumetrics, WriteTo at line 689, LoadInto at line 705 *)
Definition threed1_volumetrics_members : list string := ["int_p"; "avg_p"; "int_bpol"; "avg_bpol"; "int_btor"; "avg_btor"; "int_modb"; "avg_modb"; "int_ekin"; "avg_ekin"].
Definition threed1_volumetrics_part : part := mkPart "/threed1_volumetrics"
  ["int_p"; "avg_p"; "int_bpol"; "avg_bpol"; "int_btor"; "avg_btor"; "int_modb"; "avg_modb"; "int_ekin"; "avg_ekin"]
  [Rd "int_p"; Rd "avg_p"; Rd "int_bpol"; Rd "avg_bpol"; Rd "int_btor"; Rd "avg_btor"; Rd "int_modb"; Rd "avg_modb"; Rd "int_ekin"; Rd "avg_ekin"].

(** Threed1AxisGeometry, WriteTo at line 720, LoadInto at line 730 *)
Definition threed1_axis_geometry_members : list string := ["raxis_symm"; "zaxis_symm"; "raxis_asym"; "zaxis_asym"].
Definition threed1_axis_geometry_part : part := mkPart "/threed1_axis_geometry"
  ["raxis_symm"; "zaxis_symm"; "raxis_asym"; "zaxis_asym"]
  [Rd "raxis_symm"; Rd "zaxis_symm"; Rd "raxis_asym"; Rd "zaxis_asym"].

(** Threed1Betas, WriteTo at line 739, LoadInto at line 750 *)
Definition threed1_betas_members : list string := ["betatot"; "betapol"; "betator"; "rbtor"; "betaxis"; "betstr"].
Definition threed1_betas_part : part := mkPart "/threed1_betas"
  ["betatot"; "betapol"; "betator"; "rbtor"; "betaxis"; "betstr"]
  [Rd "betatot"; Rd "betapol"; Rd "betator"; Rd "rbtor"; Rd "betaxis"; Rd "betstr"].

(** Threed1ShafranovIntegrals, WriteTo at line 761, LoadInto at line 783 *)
Definition threed1_shafranov_integrals_members : list string := ["scaling_ratio"; "r_lao"; "f_lao"; "f_geo"; "smaleli"; "betai"; "musubi"; "lambda"; "s11"; "s12"; "s13"; "s2"; "s3"; "delta1"; "delta2"; "delta3"].
Definition threed1_shafranov_integrals_part : part := mkPart "/threed1_shafranov_integrals"
  ["scaling_ratio"; "r_lao"; "f_lao"; "f_geo"; "smaleli"; "betai"; "musubi"; "lambda"; "s11"; "s12"; "s13"; "s2"; "s3"; "delta1"; "delta2"; "delta3"]
  [Rd "scaling_ratio"; Rd "r_lao"; Rd "f_lao"; Rd "f_geo"; Rd "smaleli"; Rd "betai"; Rd "musubi"; Rd "lambda"; Rd "s11"; Rd "s12"; Rd "s13"; Rd "s2"; Rd "s3"; Rd "delta1"; Rd "delta2"; Rd "delta3"].

(** WOutFileContents, WriteTo at line 804, LoadInto at line 932 *)
Definition wout_members : list string := ["version_"; "input_extension"; "signgs"; "gamma"; "pcurr_type"; "pmass_type"; "piota_type"; "am"; "ac"; "ai"; "am_aux_s"; "am_aux_f"; "ac_aux_s"; "ac_aux_f"; "ai_aux_s"; "ai_aux_f"; "nfp"; "mpol"; "ntor"; "lasym"; "lrfp"; "ns"; "ftolv"; "niter"; "lfreeb"; "mgrid_file"; "nextcur"; "extcur"; "mgrid_mode"; "wb"; "wp"; "rmax_surf"; "rmin_surf"; "zmax_surf"; "mnmax"; "mnmax_nyq"; "ier_flag"; "aspect"; "betatotal"; "betapol"; "betator"; "betaxis"; "b0"; "rbtor0"; "rbtor"; "IonLarmor"; "volavgB"; "ctor"; "Aminor_p"; "Rmajor_p"; "volume"; "fsqr"; "fsqz"; "fsql"; "itfsq"; "iotaf"; "q_factor"; "presf"; "phi"; "phipf"; "chi"; "chipf"; "jcuru"; "jcurv"; "fsqt"; "force_residual_r"; "force_residual_z"; "force_residual_lambda"; "delbsq"; "restart_reason_timetrace"; "wdot"; "iotas"; "mass"; "pres"; "beta_vol"; "buco"; "bvco"; "vp"; "specw"; "phips"; "over_r"; "jdotb"; "bdotb"; "bdotgradv"; "DMerc"; "DShear"; "DWell"; "DCurr"; "DGeod"; "equif"; "curlabel"; "potvac"; "xm"; "xn"; "xm_nyq"; "xn_nyq"; "raxis_cc"; "zaxis_cs"; "rmnc"; "zmns"; "lmns_full"; "lmns"; "gmnc"; "bmnc"; "bsubumnc"; "bsubvmnc"; "bsubsmns"; "bsubsmns_full"; "bsupumnc"; "bsupvmnc"; "currumnc"; "currvmnc"; "raxis_cs"; "zaxis_cc"; "rmns"; "zmnc"; "lmnc_full"; "lmnc"; "gmns"; "bmns"; "bsubumns"; "bsubvmns"; "bsubsmnc"; "bsubsmnc_full"; "bsupumns"; "bsupvmns"; "currumns"; "currvmns"].
Definition wout_part : part := mkPart "/wout"
  ["version_"; "signgs"; "gamma"; "pcurr_type"; "pmass_type"; "piota_type"; "am"; "ac"; "ai"; "am_aux_s"; "am_aux_f"; "ac_aux_s"; "ac_aux_f"; "ai_aux_s"; "ai_aux_f"; "nfp"; "mpol"; "ntor"; "lasym"; "ns"; "ftolv"; "niter"; "lfreeb"; "mgrid_file"; "nextcur"; "extcur"; "mgrid_mode"; "wb"; "wp"; "rmax_surf"; "rmin_surf"; "zmax_surf"; "mnmax"; "mnmax_nyq"; "ier_flag"; "aspect"; "betatotal"; "betapol"; "betator"; "betaxis"; "b0"; "rbtor0"; "rbtor"; "IonLarmor"; "volavgB"; "ctor"; "Aminor_p"; "Rmajor_p"; "volume"; "fsqr"; "fsqz"; "fsql"; "iotaf"; "q_factor"; "presf"; "phi"; "phipf"; "chi"; "chipf"; "jcuru"; "jcurv"; "iotas"; "mass"; "pres"; "beta_vol"; "buco"; "bvco"; "vp"; "specw"; "phips"; "over_r"; "jdotb"; "bdotgradv"; "DMerc"; "DShear"; "DWell"; "DCurr"; "DGeod"; "equif"; "curlabel"; "potvac"; "xm"; "xn"; "xm_nyq"; "xn_nyq"; "raxis_cc"; "zaxis_cs"; "rmnc"; "zmns"; "lmns_full"; "lmns"; "gmnc"; "bmnc"; "bsubumnc"; "bsubvmnc"; "bsubsmns"; "bsubsmns_full"; "bsupumnc"; "bsupvmnc"; "currumnc"; "currvmnc"; "raxis_cs"; "zaxis_cc"; "rmns"; "zmnc"; "lmnc_full"; "lmnc"; "gmns"; "bmns"; "bsubumns"; "bsubvmns"; "bsubsmnc"; "bsubsmnc_full"; "bsupumns"; "bsupvmns"; "currumns"; "currvmns"]
  [RdVersion; RdC "signgs" "sign_of_jacobian"; Rd "gamma"; Rd "pcurr_type"; Rd "pmass_type"; Rd "piota_type"; Rd "am"; Rd "ac"; Rd "ai"; Rd "am_aux_s"; Rd "am_aux_f"; Rd "ac_aux_s"; Rd "ac_aux_f"; Rd "ai_aux_s"; Rd "ai_aux_f"; Rd "nfp"; Rd "mpol"; Rd "ntor"; Rd "lasym"; Rd "ns"; Rd "ftolv"; RdC "niter" "maximum_iterations"; Rd "lfreeb"; Rd "mgrid_file"; RdExt; Rd "mgrid_mode"; Rd "wb"; Rd "wp"; Rd "rmax_surf"; Rd "rmin_surf"; Rd "zmax_surf"; Rd "mnmax"; Rd "mnmax_nyq"; Rd "ier_flag"; Rd "aspect"; RdC "betatotal" "betatot"; Rd "betapol"; Rd "betator"; Rd "betaxis"; Rd "b0"; Rd "rbtor0"; Rd "rbtor"; Rd "IonLarmor"; RdC "volavgB" "VolAvgB"; Rd "ctor"; Rd "Aminor_p"; Rd "Rmajor_p"; RdC "volume" "volume_p"; Rd "fsqr"; Rd "fsqz"; Rd "fsql"; RdC "iotaf" "iota_full"; RdC "q_factor" "safety_factor"; RdC "presf" "pressure_full"; RdC "phi" "toroidal_flux"; Rd "phipf"; RdC "chi" "poloidal_flux"; Rd "chipf"; Rd "jcuru"; Rd "jcurv"; RdC "specw" "spectral_width"; RdHalf [("iotas", "iota_half"); ("mass", "mass"); ("pres", "pressure_half"); ("beta_vol", "beta"); ("buco", "buco"); ("bvco", "bvco"); ("vp", "dVds"); ("phips", "phips"); ("over_r", "overr")]; Rd "jdotb"; Rd "bdotgradv"; Rd "DMerc"; RdC "DShear" "Dshear"; RdC "DWell" "Dwell"; RdC "DCurr" "Dcurr"; RdC "DGeod" "Dgeod"; Rd "equif"; Rd "curlabel"; Rd "potvac"; Rd "xm"; Rd "xn"; Rd "xm_nyq"; Rd "xn_nyq"; RdC "raxis_cc" "raxis_c"; RdC "zaxis_cs" "zaxis_s"; T2 "rmnc" "rmnc"; T2 "zmns" "zmns"; T2 "lmns_full" "lmns_full"; T2p "lmns" "lmns" "mnmax"; T2p "gmnc" "gmnc" "mnmax_nyq"; T2p "bmnc" "bmnc" "mnmax_nyq"; T2p "bsubumnc" "bsubumnc" "mnmax_nyq"; T2p "bsubvmnc" "bsubvmnc" "mnmax_nyq"; T2p "bsubsmns" "bsubsmns" "mnmax_nyq"; Rd "bsubsmns_full"; T2p "bsupumnc" "bsupumnc" "mnmax_nyq"; T2p "bsupvmnc" "bsupvmnc" "mnmax_nyq"; T2o "currumnc" "currumnc"; T2o "currvmnc" "currvmnc"; RdC "raxis_cs" "raxis_s"; RdC "zaxis_cc" "zaxis_c"; T2 "rmns" "rmns"; T2 "zmnc" "zmnc"; T2 "lmnc_full" "lmnc_full"; T2p "lmnc" "lmnc" "mnmax"; T2p "gmns" "gmns" "mnmax_nyq"; T2p "bmns" "bmns" "mnmax_nyq"; T2p "bsubumns" "bsubumns" "mnmax_nyq"; T2p "bsubvmns" "bsubvmns" "mnmax_nyq"; T2p "bsubsmnc" "bsubsmnc" "mnmax_nyq"; Rd "bsubsmnc_full"; T2p "bsupumns" "bsupumns" "mnmax_nyq"; T2p "bsupvmns" "bsupvmns" "mnmax_nyq"; T2o "currumns" "currumns"; T2o "currvmns" "currvmns"].

(** Save 1146-1248, in order *)
Definition parts : list part := [vmec_internal_results_part; remaining_metric_part; cylindrical_components_of_b_part; bsubs_half_part; bsubs_full_part; covariant_b_derivatives_part; jxbout_part; mercier_intermediate_part; mercier_part; threed1_first_table_intermediate_part; threed1_first_table_part; threed1_geometric_and_magnetic_quantities_intermediate_part; threed1_geometric_and_magnetic_quantities_part; threed1_volumetrics_part; threed1_axis_geometry_part; threed1_betas_part; threed1_shafranov_integrals_part; wout_part].
Definition members_of : list (list string) := [vmec_internal_results_members; remaining_metric_members; cylindrical_components_of_b_members; bsubs_half_members; bsubs_full_members; covariant_b_derivatives_members; jxbout_members; mercier_intermediate_members; mercier_members; threed1_first_table_intermediate_members; threed1_first_table_members; threed1_geometric_and_magnetic_quantities_intermediate_members; threed1_geometric_and_magnetic_quantities_members; threed1_volumetrics_members; threed1_axis_geometry_members; threed1_betas_members; threed1_shafranov_integrals_members; wout_members].
