-Q theories Verif
theories/Aabb_Model.v
theories/Aabb_Proofs.v
theories/Aabb_Props.v
theories/Aabb_Spec.v
theories/Aabb_Sqrt.v
theories/Approx_Model.v
theories/Approx_Proofs.v
theories/Approx_Props.v
theories/Approx_Spec.v
theories/Brep_Default.v
theories/Brep_Main.v
theories/Brep_Model.v
theories/Brep_Pass.v
theories/Brep_Proofs.v
theories/Brep_Props.v
theories/Brep_Read.v
theories/Brep_Run.v
theories/Brep_Spec.v
theories/Brep_Total.v
theories/Brep_Wire.v
theories/Brep_Write.v
theories/Build_Main.v
theories/Build_Model.v
theories/Build_Parents.v
theories/Build_Poly.v
theories/Build_Props.v
theories/Build_Set.v
theories/Build_Spec.v
theories/Build_Wire.v
theories/Decomp_Add.v
theories/Decomp_Back.v
theories/Decomp_Check.v
theories/Decomp_Cut.v
theories/Decomp_Del.v
theories/Decomp_Eff.v
theories/Decomp_Good.v
theories/Decomp_Hist.v
theories/Decomp_Ids.v
theories/Decomp_Inv.v
theories/Decomp_Join.v
theories/Decomp_Merge.v
theories/Decomp_Mid.v
theories/Decomp_Model.v
theories/Decomp_Nest.v
theories/Decomp_Perm.v
theories/Decomp_Planar.v
theories/Decomp_Plane.v
theories/Decomp_Props.v
theories/Decomp_Spec.v
theories/Decomp_Split.v
theories/Decomp_Surgery.v
theories/Decomp_Told.v
theories/Decomp_Tree.v
theories/Decomp_Unmid.v
theories/Decomp_Walk.v
theories/Editor_Box.v
theories/Editor_Model.v
theories/Editor_Plane.v
theories/Editor_Proofs.v
theories/Editor_Props.v
theories/Editor_Spec.v
theories/Editor_Undo.v
theories/Fgrid_Model.v
theories/Fgrid_Props.v
theories/Field_Model.v
theories/Field_Proofs.v
theories/Field_Props.v
theories/Field_Spec.v
theories/Fit_Basis.v
theories/Fit_Integral.v
theories/Fit_Matrix.v
theories/Fit_Model.v
theories/Fit_Proofs.v
theories/Fit_Props.v
theories/Fit_Reg.v
theories/Fit_Rough.v
theories/Fit_Run.v
theories/Fit_Solve.v
theories/Fit_Spec.v
theories/Gapprox2_Props.v
theories/Gapprox_Model.v
theories/Gapprox_Props.v
theories/Geom_Model.v
theories/Geom_Proofs.v
theories/Geom_Props.v
theories/Geom_Spec.v
theories/Gmsh_Cut.v
theories/Gmsh_Frag.v
theories/Gmsh_Misc.v
theories/Gmsh_Model.v
theories/Gmsh_Phys.v
theories/Gmsh_Proofs.v
theories/Gmsh_Props.v
theories/Gmsh_Spec.v
theories/Gmsh_Split.v
theories/Gmsh_Sync.v
theories/Gmsh_Wf.v
theories/Heal_Geom.v
theories/Heal_Loop.v
theories/Heal_Merge.v
theories/Heal_Model.v
theories/Heal_Proofs.v
theories/Heal_Props.v
theories/Heal_Run.v
theories/Heal_Safe.v
theories/Heal_Shape.v
theories/Heal_Spec.v
theories/Heal_Term.v
theories/Hull_Model.v
theories/Hull_Proofs.v
theories/Hull_Props.v
theories/Hull_Spec.v
theories/Ibox_Model.v
theories/Ibox_Props.v
theories/Ibox_Run.v
theories/Ibox_Spec.v
theories/IdMap_Model.v
theories/IdMap_Proofs.v
theories/IdMap_Props.v
theories/Isec_Basis.v
theories/Isec_Model.v
theories/Isec_Newton.v
theories/Isec_Props.v
theories/Isec_Run.v
theories/Isec_Spec.v
theories/Isec_Surf.v
theories/Line_Add.v
theories/Line_Cut.v
theories/Line_Geo.v
theories/Line_Main.v
theories/Line_Model.v
theories/Line_Plane.v
theories/Line_Props.v
theories/Line_Run.v
theories/Line_Segs.v
theories/Line_Spec.v
theories/Line_Test.v
theories/MergeWay_Props.v
theories/Merge_Carry.v
theories/Merge_Cuts.v
theories/Merge_Dict.v
theories/Merge_Fill.v
theories/Merge_Keep.v
theories/Merge_Lines.v
theories/Merge_Maps.v
theories/Merge_Model.v
theories/Merge_Props.v
theories/Merge_Run.v
theories/Merge_Sides.v
theories/Merge_Spec.v
theories/Merge_Walk.v
theories/MshIO_Data.v
theories/MshIO_Model.v
theories/MshIO_Proofs.v
theories/MshIO_Props.v
theories/MshIO_Read.v
theories/MshIO_Spec.v
theories/Quad_Model.v
theories/Quad_Props.v
theories/Quad_Spec.v
theories/Rect_All.v
theories/Rect_Model.v
theories/Rect_Proofs.v
theories/Rect_Props.v
theories/Rect_Spec.v
theories/Report_Model.v
theories/Report_Props.v
theories/Shift_Model.v
theories/Shift_Props.v
theories/Shift_Run.v
theories/Shift_Spec.v
theories/Snap_Add.v
theories/Snap_Cand.v
theories/Snap_Main.v
theories/Snap_Model.v
theories/Snap_Plane.v
theories/Snap_Proofs.v
theories/Snap_Props.v
theories/Snap_Spec.v
theories/Snap_Split.v
theories/Spline_Curve.v
theories/Spline_Model.v
theories/Spline_Piece.v
theories/Spline_Proofs.v
theories/Spline_Props.v
theories/Spline_Spec.v
theories/Tet_Model.v
theories/Tet_Proofs.v
theories/Tet_Props.v
theories/Tet_Spec.v
theories/Tree_Model.v
theories/Tree_Proofs.v
theories/Tree_Props.v
theories/Tree_Spec.v
theories/Tree_Walk.v
theories/Undo_Model.v
theories/Undo_Proofs.v
theories/Undo_Props.v
theories/Undo_Spec.v
theories/ZSurf_Grid.v
theories/ZSurf_Model.v
theories/ZSurf_Proofs.v
theories/ZSurf_Props.v
theories/ZSurf_Spec.v
