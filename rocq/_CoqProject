-Q theories Verif
theories/Base.v
theories/Vec3.v
theories/Isometry_Model.v
theories/Isometry_Spec.v
theories/Isometry_Proof.v
theories/Isometry_Thm.v
theories/Sky_Model.v
theories/Sky_Proof.v
theories/Sky_Spec.v
theories/Sky_Thm.v
theories/Cutsky_Model.v
theories/Cutsky_Spec.v
theories/Cutsky_Proof.v
theories/Cutsky_Thm.v
theories/Box_Model.v
theories/Box_Spec.v
theories/Box_Proof.v
theories/Box_Proof2.v
theories/Box_Proof3.v
theories/Box_Proof4.v
theories/Box_Proof5.v
theories/Box_Thm.v
theories/Region_Model.v
theories/Region_Spec.v
theories/Region_Thm.v
theories/Rsd_Model.v
theories/Rsd_Spec.v
theories/Rsd_Proof.v
theories/Rsd_Thm.v
theories/Remap_Model.v
theories/Remap_Spec.v
theories/Remap_Proof.v
theories/Remap_Proof2.v
theories/Remap_Proof3.v
theories/Remap_Proof4.v
theories/Remap_Thm.v
theories/Lattice_Model.v
theories/Lattice_Spec.v
theories/Lattice_Proof.v
theories/Lattice_Thm.v
theories/Mask_Model.v
theories/Mask_Spec.v
theories/Mask_Proof.v
theories/Mask_Proof2.v
theories/Mask_Proof3.v
theories/Mask_Proof4.v
theories/Mask_Thm.v
theories/Sample_Model.v
theories/Sample_Spec.v
theories/Sample_Proof.v
theories/Sample_Thm.v
theories/Density_Model.v
theories/Density_Spec.v
theories/Density_Proof.v
theories/Density_Thm.v
theories/Random_Model.v
theories/Random_Spec.v
theories/Random_Thm.v
theories/Random_Thm2.v
theories/Spline_Model.v
theories/Spline_Spec.v
theories/Spline_Thm.v
theories/Spline_Thm2.v
theories/Smear_Model.v
theories/Smear_Spec.v
theories/Smear_Proof.v
theories/Smear_Thm.v
theories/Mock_Model.v
theories/Mock_Spec.v
theories/Fourier_Proof.v
theories/Mock_Thm.v
theories/Mock_Thm2.v
theories/Interlace_Thm.v
theories/Blind_Model.v
theories/Blind_Spec.v
theories/Blind_Thm.v
theories/Blind_Thm2.v
theories/Blind_Thm3.v
theories/Blind_Thm4.v
theories/FA_Model.v
theories/FA_Spec.v
theories/FA_Proof.v
theories/FA_Thm.v
theories/Comp_Spec.v
theories/Comp_Thm.v
theories/Brick_Model.v
theories/Brick_Spec.v
theories/Brick_Thm.v
theories/Foot_Model.v
theories/Foot_Spec.v
theories/Foot_Thm.v
theories/Dist_Model.v
theories/Dist_Spec.v
theories/Dist_Thm.v
theories/Mesh_Model.v
theories/Mesh_Spec.v
theories/Mesh_Thm.v
theories/Mesh_Thm2.v
theories/Mesh_Thm3.v
theories/Tracer_Model.v
theories/Tracer_Spec.v
theories/Tracer_Thm.v
theories/Tracer_Thm2.v
theories/Tracer_Thm3.v
theories/Seed_Model.v
theories/Seed_Thm.v
theories/Script_Model.v
theories/Script_Thm.v
theories/Script_Thm2.v
theories/Tile_Model.v
theories/Tile_Spec.v
theories/Tile_Thm.v
theories/V0_Model.v
theories/V0_Spec.v
theories/V0_Thm.v
theories/V0_Thm2.v
theories/SV3_Model.v
theories/SV3_Spec.v
theories/SV3_Thm.v
theories/SV3_Thm2.v
theories/Coll_Model.v
theories/Coll_Spec.v
theories/Coll_Thm.v
theories/Coll_Thm2.v
theories/Coll_Thm3.v
theories/Coll_Thm4.v
theories/Alias_Model.v
theories/Alias_Spec.v
theories/Alias_Thm.v
theories/Alias_Thm2.v
theories/Alias_Thm3.v
theories/Round_Model.v
theories/Round_Spec.v
theories/Round_Thm.v
theories/Round_Thm2.v
theories/Box_Thm2.v
theories/Box_Thm3.v
theories/Mask_Thm2.v
theories/Sky_Thm2.v
theories/Cutsky_Thm2.v
theories/Law_Spec.v
theories/Law_Proof.v
theories/Law_Proof2.v
theories/Law_Thm.v
theories/Law_Thm2.v
theories/Drift_Model.v
theories/Drift_Spec.v
theories/Drift_Proof.v
theories/Drift_Proof2.v
theories/Drift_Thm.v
theories/Ens_Spec.v
theories/Ens_Proof.v
theories/Ens_Thm.v
theories/Ens_Thm2.v
theories/Rosette_Model.v
theories/Rosette_Spec.v
theories/Rosette_Proof.v
theories/Rosette_Proof2.v
theories/Rosette_Proof3.v
theories/Rosette_Proof4.v
theories/Rosette_Proof5.v
theories/Rosette_Proof6.v
theories/Rosette_Thm.v
theories/Rosette_Thm2.v
theories/Rosette_Case.v
theories/Exact_Spec.v
theories/Exact_Proof.v
theories/Exact_Thm.v
theories/Exact_Proof2.v
theories/Exact_Spec2.v
theories/Exact_Proof3.v
theories/Exact_Thm2.v
theories/Exact_Spec3.v
theories/Exact_Thm3.v
theories/Proc_Model.v
theories/Proc_Spec.v
theories/Proc_Proof.v
theories/Proc_Thm.v
theories/Proc_Thm2.v
theories/Job_Model.v
theories/Job_Spec.v
theories/Job_Thm.v
theories/Zel_Spec.v
theories/Zel_Proof.v
theories/Zel_Proof2.v
theories/Zel_Thm.v
theories/Zel_Thm2.v
theories/Zel_Thm3.v
theories/Arch_Model.v
theories/Arch_Spec.v
theories/Arch_Proof.v
theories/Arch_Proof2.v
theories/Arch_Thm.v
theories/Arch_Thm2.v
theories/Unit_Spec.v
theories/Unit_Proof.v
theories/Unit_Proof2.v
theories/Unit_Proof3.v
theories/Unit_Proof4.v
theories/Unit_Thm.v
theories/Move_Spec.v
theories/Move_Proof.v
theories/Move_Proof2.v
theories/Move_Thm.v
theories/Rows_Spec.v
theories/Rows_Proof.v
theories/Rows_Thm.v
theories/Undo_Spec.v
theories/Undo_Proof.v
theories/Undo_Thm.v
theories/Cut_Model.v
theories/Cut_Thm.v
theories/Axes_Spec.v
theories/Axes_Proof.v
theories/Axes_Thm.v
theories/Back_Thm.v
theories/Sup_Spec.v
theories/Sup_Proof.v
theories/Sup_Thm.v
theories/Slip_Model.v
theories/Slip_Spec.v
theories/Slip_Proof.v
theories/Slip_Thm.v
theories/Desi_Model.v
theories/Desi_Spec.v
theories/Desi_Proof.v
theories/Desi_Proof2.v
theories/Desi_Proof3.v
theories/Desi_Proof4.v
theories/Desi_Thm.v
theories/Desi_Thm2.v
theories/Desi_Proof5.v
theories/Desi_Thm3.v
theories/Astro_Model.v
theories/Astro_Spec.v
theories/Astro_Proof.v
theories/Astro_Proof2.v
theories/Astro_Proof3.v
theories/Astro_Proof4.v
theories/Astro_Thm.v
theories/Astro_Thm2.v
theories/Wobble_Model.v
theories/Wobble_Spec.v
theories/Wobble_Proof.v
theories/Wobble_Proof2.v
theories/Wobble_Proof3.v
theories/Wobble_Thm.v
theories/Wobble_Proof4.v
theories/Wobble_Proof5.v
theories/Wobble_Proof6.v
theories/Wobble_Thm2.v
theories/Wobble_Proof7.v
theories/Wobble_Thm3.v
