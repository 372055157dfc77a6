-Q theories Verif
theories/Base.v
theories/Sort_Model.v
theories/Sort_Spec.v
theories/Sort_Proofs.v
theories/Sort_Props.v
theories/Morton_Model.v
theories/Morton_Spec.v
theories/Morton_Proofs.v
theories/Morton_Props.v
theories/Vector_Model.v
theories/Vector_Spec.v
theories/Vector_Proofs.v
theories/Vector_Props.v
theories/Own.v
theories/String_Model.v
theories/String_Spec.v
theories/String_Proofs.v
theories/String_Props.v
theories/StringView_Model.v
theories/StringView_Spec.v
theories/StringView_Proofs.v
theories/StringView_Props.v
theories/Loops.v
theories/Grid_Model.v
theories/Grid_Spec.v
theories/Grid_Proofs.v
theories/Grid_Props.v
theories/Stats_Model.v
theories/Stats_Spec.v
theories/Stats_Proofs.v
theories/Stats_Props.v
theories/Elem_Model.v
theories/Elem_Spec.v
theories/Elem_Proofs.v
theories/Elem_Props.v
theories/Color_Model.v
theories/Color_Spec.v
theories/Color_Proofs.v
theories/Color_Props.v
theories/Arith.v
theories/Vec_Model.v
theories/Vec_Spec.v
theories/Vec_Proofs.v
theories/Vec_Props.v
theories/Matrix_Model.v
theories/Matrix_Spec.v
theories/Matrix_Proofs.v
theories/Matrix_Props.v
theories/Roots_Model.v
theories/Roots_Spec.v
theories/Roots_Proofs.v
theories/Roots_Props.v
theories/Soup_Model.v
theories/Soup_Spec.v
theories/Soup_Proofs.v
theories/Soup_Sort_Proofs.v
theories/Soup_Merge_Proofs.v
theories/Soup_Subset_Proofs.v
theories/Soup_Compare_Proofs.v
theories/Soup_Final_Proofs.v
theories/Soup_Props.v
theories/Fvm_Model.v
theories/Fvm_Spec.v
theories/Fvm_Proofs.v
theories/Fvm_History_Proofs.v
theories/Fvm_Sort_Proofs.v
theories/Fvm_Query_Proofs.v
theories/FvmMorton_Model.v
theories/FvmMorton_Spec.v
theories/FvmMorton_Proofs.v
theories/Fvm_Props.v
theories/RayMesh_Model.v
theories/RayMesh_Spec.v
theories/RayMesh_Proofs.v
theories/RayMesh_Props.v
theories/Manifold_Model.v
theories/Manifold_Spec.v
theories/Manifold_Proofs.v
theories/XReal.v
theories/Box_Model.v
theories/Box_Spec.v
theories/Box_Proofs.v
theories/Box_Props.v
theories/Seg_Model.v
theories/Seg_Spec.v
theories/Seg_Proofs.v
theories/Seg_Props.v
theories/Poly_Model.v
theories/Poly_Spec.v
theories/Poly_Proofs.v
theories/Poly_Props.v
theories/QSeg_Model.v
theories/QSeg_Spec.v
theories/QSeg_Proofs.v
theories/QSeg_Ray_Proofs.v
theories/QSeg_Len_Proofs.v
theories/QSeg_Near_Proofs.v
theories/QSeg_Left_Proofs.v
theories/QSeg_Props.v
theories/QPoly_Model.v
theories/QPoly_Spec.v
theories/QPoly_Proofs.v
theories/QPoly_Props.v
theories/Shape_Model.v
theories/Shape_Spec.v
theories/Shape_Proofs.v
theories/Shape_Props.v
theories/Rays_Model.v
theories/Rays_Spec.v
theories/Rays_Proofs.v
theories/Rays_Props.v
theories/Zaid_Model.v
theories/Zaid_Spec.v
theories/Zaid_Proofs.v
theories/Zaid_Props.v
theories/XSec_Model.v
theories/XSec_Spec.v
theories/XSec_Proofs.v
theories/XSec_Use_Proofs.v
theories/XSec_Mat_Proofs.v
theories/XSec_Props.v
theories/Density_Model.v
theories/Density_Spec.v
theories/Density_Proofs.v
theories/Density_UO2_Proofs.v
theories/Density_Props.v
theories/Cmfd_Model.v
theories/Cmfd_Spec.v
theories/Cmfd_Proofs.v
theories/Cmfd_Ana_Proofs.v
theories/Cmfd_Loop_Proofs.v
theories/Cmfd_Flat_Proofs.v
theories/Cmfd_Again_Proofs.v
theories/Cmfd_Ex_Proofs.v
theories/Cmfd_Props.v
theories/Ascii_Model.v
theories/Ascii_Spec.v
theories/Ascii_Proofs.v
theories/Ascii_Props.v
theories/Powers_Model.v
theories/Powers_Spec.v
theories/Powers_Proofs.v
theories/Powers_Props.v
theories/Fill.v
theories/PinRect_Model.v
theories/PinRect_Spec.v
theories/PinRect_Proofs.v
theories/PinRect_Props.v
theories/PinCyl_Model.v
theories/PinCyl_Spec.v
theories/PinCyl_Trig_Proofs.v
theories/PinCyl_Rings_Proofs.v
theories/PinCyl_Edges_Proofs.v
theories/PinCyl_Lin_Proofs.v
theories/PinCyl_Quad_Proofs.v
theories/PinCyl_Proofs.v
theories/PinCyl_Props.v
theories/Mpact_Model.v
theories/Mpact_Spec.v
theories/Mpact_Proofs.v
theories/Mpact_Props.v
theories/Mpact_Steps_Proofs.v
theories/Mpact_Accept_Proofs.v
theories/Mpact_Layout_Proofs.v
theories/Mpact_Column_Proofs.v
theories/Mpact_Pin_Proofs.v
theories/Mpact_Refuted_Proofs.v
theories/CApi_Model.v
theories/CApi_Spec.v
theories/CApi_Proofs.v
theories/CApi_Props.v
theories/CApi_More_Proofs.v
theories/CApi_Refuted_Proofs.v
theories/Logger_Model.v
theories/Logger_Spec.v
theories/Logger_Proofs.v
theories/Logger_Props.v
theories/Xdmf_Model.v
theories/Xdmf_Spec.v
theories/Xdmf_Proofs.v
theories/Xdmf_Topo_Proofs.v
theories/Xdmf_File_Proofs.v
theories/Xdmf_Props.v
theories/TextIo_Model.v
theories/TextIo_Spec.v
theories/TextIo_Proofs.v
theories/Abaqus_Model.v
theories/Abaqus_Spec.v
theories/Abaqus_Proofs.v
theories/Abaqus_Props.v
theories/Vtk_Model.v
theories/Vtk_Spec.v
theories/Vtk_Proofs.v
theories/Vtk_Props.v
theories/QInt_Model.v
theories/QInt_Spec.v
theories/QInt_Proofs.v
theories/QInt_Poly_Proofs.v
theories/QInt_Real_Proofs.v
theories/QInt_Final_Proofs.v
theories/QInt_Example_Proofs.v
theories/QInt_Props.v
theories/Export_Model.v
theories/Export_Spec.v
theories/Export_Sets_Proofs.v
theories/Export_Cell_Proofs.v
theories/Export_Loop_Proofs.v
theories/Export_Level_Proofs.v
theories/Export_Proofs.v
theories/Export_Final_Proofs.v
theories/Export_Names_Proofs.v
theories/Export_Props.v
theories/Import_Model.v
theories/Manifold_Valid_Spec.v
theories/Manifold_Valid_Proofs.v
theories/Manifold_Props.v
theories/Import_Spec.v
theories/Import_Sets_Proofs.v
theories/Import_Mesh_Proofs.v
theories/Import_Proofs.v
theories/Import_Loop_Proofs.v
theories/Import_Refuted_Proofs.v
theories/Import_Props.v
theories/ModelIo_Model.v
theories/ModelIo_Spec.v
theories/ModelIo_View_Spec.v
theories/ModelIo_Text_Proofs.v
theories/ModelIo_Grid_Proofs.v
theories/ModelIo_Cell_Proofs.v
theories/ModelIo_Data_Proofs.v
theories/ModelIo_Write_Proofs.v
theories/ModelIo_Read_Proofs.v
theories/ModelIo_Build_Proofs.v
theories/ModelIo_Proofs.v
theories/ModelIo_View_Proofs.v
theories/ModelIo_More_Proofs.v
theories/ModelIo_Example_Proofs.v
theories/ModelIo_Props.v
theories/Outputs_Model.v
theories/Outputs_Spec.v
theories/Outputs_Volume_Proofs.v
theories/Outputs_Solid_Proofs.v
theories/Outputs_Chord_Proofs.v
theories/Outputs_Proofs.v
theories/Outputs_Write_Proofs.v
theories/Outputs_Example_Proofs.v
theories/Outputs_Props.v
theories/CmfdInfo_Model.v
theories/CmfdInfo_Spec.v
theories/CmfdInfo_Quads_Proofs.v
theories/CmfdInfo_Data_Proofs.v
theories/CmfdInfo_Proofs.v
theories/CmfdInfo_Example_Proofs.v
theories/CmfdInfo_Props.v
theories/Library_Model.v
theories/Library_Spec.v
theories/Library_Text_Proofs.v
theories/Library_Data_Proofs.v
theories/Library_Nuclide_Proofs.v
theories/Library_Proofs.v
theories/Library_Props.v
theories/Groups_Model.v
theories/Groups_Spec.v
theories/Groups_List_Proofs.v
theories/Groups_Ops_Proofs.v
theories/Groups_Hier_Proofs.v
theories/Groups_Proofs.v
theories/Groups_Props.v
theories/Pins_Model.v
theories/Pins_Spec.v
theories/Pins_Proofs.v
theories/Pins_Props.v
theories/Coarse_Model.v
theories/Coarse_Spec.v
theories/Coarse_Proofs.v
theories/Coarse_Props.v
theories/Overlay_Model.v
theories/Overlay_Spec.v
theories/Overlay_Proofs.v
theories/Overlay_Props.v
theories/GmshIo_Model.v
theories/GmshIo_Spec.v
theories/GmshIo_Text_Proofs.v
theories/GmshIo_Read_Proofs.v
theories/GmshIo_Proofs.v
theories/GmshIo_Total_Proofs.v
theories/GmshIo_Props.v
theories/Knudsen_Model.v
theories/Knudsen_Spec.v
theories/Knudsen_Proofs.v
theories/Knudsen_Size_Proofs.v
theories/Knudsen_Ret_Proofs.v
theories/Knudsen_Props.v
theories/Slice_Model.v
theories/Slice_Spec.v
theories/Slice_Proofs.v
theories/Slice_Props.v
theories/Source_Model.v
theories/Source_Spec.v
theories/Source_Proofs.v
theories/Source_Props.v
theories/Extract_Model.v
theories/Extract_Spec.v
theories/Extract_Proofs.v
theories/Extract_Written_Proofs.v
theories/Extract_Props.v
theories/Blas_Model.v
theories/Blas_Spec.v
theories/Blas_Proofs.v
theories/Blas_Ex_Proofs.v
theories/Blas_Cmfd_Proofs.v
theories/Blas_Props.v
theories/Meshing_Model.v
theories/Meshing_Spec.v
theories/Meshing_Proofs.v
theories/Meshing_Props.v
theories/PowerFile_Model.v
theories/PowerFile_Spec.v
theories/PowerFile_Proofs.v
theories/PowerFile_Props.v
theories/Files_Model.v
theories/Files_Spec.v
theories/Files_Proofs.v
theories/Files_Props.v
theories/LibMat_Model.v
theories/LibMat_Spec.v
theories/LibMat_Proofs.v
theories/LibMat_Props.v
