-Q theories Verif
theories/M_Base.v
theories/M_Numpy.v
theories/Util.v
theories/M_Edges.v
theories/S_Edges.v
theories/P_Edges.v
theories/T_Edges.v
theories/M_FixMesh.v
theories/S_FixMesh.v
theories/P_FixMesh.v
theories/T_FixMesh.v
theories/M_Adjacency.v
theories/S_Adjacency.v
theories/P_Adjacency.v
theories/T_Adjacency.v
theories/M_Clean.v
theories/S_Clean.v
theories/P_Search.v
theories/P_Exterior.v
theories/P_Interior.v
theories/P_Traversable.v
theories/P_OneFace.v
theories/P_Laplacian.v
theories/P_CleanMore.v
theories/P_MeshClean.v
theories/P_CleanFold.v
theories/T_Clean.v
theories/M_GradLimit.v
theories/S_GradLimit.v
theories/P_GradLimit.v
theories/T_GradLimit.v
theories/M_Sdf.v
theories/S_Sdf.v
theories/P_Sdf.v
theories/T_Sdf.v
theories/M_Inpoly.v
theories/S_Inpoly.v
theories/P_Inpoly.v
theories/T_Inpoly.v
theories/M_Boundary.v
theories/S_Boundary.v
theories/P_Boundary.v
theories/T_Boundary.v
theories/S_BoundaryM.v
theories/P_BoundaryM.v
theories/T_BoundaryM.v
theories/M_Quality.v
theories/S_Quality.v
theories/P_Quality.v
theories/P_QualityClean.v
theories/T_Quality.v
theories/M_Region.v
theories/S_Region.v
theories/P_Region.v
theories/T_Region.v
theories/M_Stereo.v
theories/P_Stereo.v
theories/T_Stereo.v
theories/M_Writers.v
theories/S_Writers.v
theories/P_Writers.v
theories/T_Writers.v
theories/M_Generate.v
theories/S_Generate.v
theories/P_Generate.v
theories/T_Generate.v
theories/M_Forces.v
theories/S_Forces.v
theories/P_Forces.v
theories/T_Forces.v
theories/M_Grid.v
theories/S_Grid.v
theories/P_Grid.v
theories/T_Grid.v
theories/M_Idw.v
theories/S_Idw.v
theories/P_Idw.v
theories/T_Idw.v
theories/M_Blend.v
theories/S_Blend.v
theories/P_Blend.v
theories/T_Blend.v
theories/M_Shore.v
theories/S_Shore.v
theories/P_Shore.v
theories/T_Shore.v
theories/M_Dem.v
theories/S_Dem.v
theories/P_Dem.v
theories/T_Dem.v
theories/M_Circle.v
theories/S_Circle.v
theories/P_Circle.v
theories/T_Circle.v
theories/M_Validate.v
theories/S_Validate.v
theories/P_Validate.v
theories/T_Validate.v
theories/M_Delaunay.v
theories/S_Delaunay.v
theories/P_Delaunay.v
theories/T_Delaunay.v
theories/M_Gradation.v
theories/S_Gradation.v
theories/P_Gradation.v
theories/T_Gradation.v
theories/M_Distance.v
theories/S_Distance.v
theories/P_Distance.v
theories/T_Distance.v
theories/M_Slope.v
theories/S_Slope.v
theories/P_Slope.v
theories/T_Slope.v
theories/M_Rings.v
theories/S_Rings.v
theories/P_Rings.v
theories/T_Rings.v
theories/M_Clip.v
theories/S_Clip.v
theories/S_Cells.v
theories/P_Clip.v
theories/T_Clip.v
theories/M_Setup.v
theories/S_Setup.v
theories/P_Setup.v
theories/T_Setup.v
theories/M_Distort.v
theories/S_Distort.v
theories/P_Distort.v
theories/T_Distort.v
theories/M_Multi.v
theories/S_Multi.v
theories/P_Multi.v
theories/T_Multi.v
theories/M_Read.v
theories/S_Read.v
theories/P_Read.v
theories/T_Read.v
theories/M_Xr.v
theories/S_Xr.v
theories/P_Xr.v
theories/T_Xr.v
theories/M_IdwStat.v
theories/S_IdwStat.v
theories/P_IdwStat.v
theories/T_IdwStat.v
theories/S_Double.v
theories/M_Ieee.v
theories/S_Ieee.v
theories/P_Double.v
theories/P_Ieee.v
theories/P_Ieee2.v
theories/P_Ieee3.v
theories/P_Ieee4.v
theories/P_Ieee5.v
theories/P_Ieee6.v
theories/P_Ieee7.v
theories/T_Ieee.v
theories/M_Domains.v
theories/S_Domains.v
theories/P_Domains.v
theories/T_Domains.v
theories/M_LimitF.v
theories/S_LimitF.v
theories/P_LimitF.v
theories/T_LimitF.v
theories/M_CutF.v
theories/S_CutF.v
theories/P_CutF.v
theories/T_CutF.v
theories/M_LapF.v
theories/S_LapF.v
theories/P_LapF.v
theories/T_LapF.v
theories/M_PipF.v
theories/S_PipF.v
theories/P_PipF.v
theories/T_PipF.v
theories/M_Version.v
theories/S_Version.v
theories/P_Version.v
theories/P_VersionMore.v
theories/T_Version.v
theories/M_Signed.v
theories/S_Signed.v
theories/P_Signed.v
theories/P_SignedRings.v
theories/P_SignedMesh.v
theories/T_Signed.v
theories/M_SizeF.v
theories/S_SizeF.v
theories/P_SizeF.v
theories/T_SizeF.v
theories/M_RayF.v
theories/S_RayF.v
theories/P_RayF.v
theories/T_RayF.v
theories/M_Plot.v
theories/S_Plot.v
theories/P_Plot.v
theories/T_Plot.v
theories/M_QualF.v
theories/S_QualF.v
theories/P_QualF.v
theories/P_QualFC.v
theories/T_QualF.v
theories/S_GridN.v
theories/P_GridN.v
theories/T_GridN.v
theories/M_Wheel.v
theories/S_Wheel.v
theories/P_Wheel.v
theories/T_Wheel.v
theories/M_Init.v
theories/S_Init.v
theories/P_Init.v
theories/T_Init.v
theories/S_Survive.v
theories/P_Survive.v
theories/T_Survive.v
theories/M_Install.v
theories/S_Install.v
theories/P_Install.v
theories/T_Install.v
theories/S_Shave.v
theories/P_Shave.v
theories/T_Shave.v
theories/M_ForceF.v
theories/S_ForceF.v
theories/P_ForceF.v
theories/P_ForceF2.v
theories/T_ForceF.v
theories/P_Slope2.v
theories/T_Slope2.v
theories/P_Validate2.v
theories/T_Validate2.v
theories/P_Xr2.v
theories/M_ProjF.v
theories/S_ProjF.v
theories/P_ProjF.v
theories/T_ProjF.v
theories/M_BuildVersion.v
theories/S_BuildVersion.v
theories/P_BuildVersion.v
theories/P_BuildVersion2.v
theories/T_BuildVersion.v
theories/M_GenF.v
theories/S_GenF.v
theories/P_GenF.v
theories/T_GenF.v
theories/P_GenF2.v
theories/T_GenF2.v
theories/M_StartF.v
theories/S_StartF.v
theories/P_StartF.v
theories/P_StartF2.v
theories/T_StartF.v
theories/M_DensifyF.v
theories/S_DensifyF.v
theories/P_DensifyF.v
theories/P_DensifyF2.v
theories/T_DensifyF.v
theories/M_OrientF.v
theories/S_OrientF.v
theories/P_OrientF.v
theories/P_OrientF2.v
theories/T_OrientF.v
theories/M_Installer.v
theories/S_Installer.v
theories/P_Installer.v
theories/P_Installer2.v
theories/P_Installer3.v
theories/T_Installer.v
theories/M_AreaF.v
theories/S_AreaF.v
theories/P_AreaF.v
theories/P_AreaF2.v
theories/T_AreaF.v
theories/M_LengthF.v
theories/S_LengthF.v
theories/P_LengthF.v
theories/P_LengthF2.v
theories/T_LengthF.v
theories/M_SetF.v
theories/S_SetF.v
theories/P_SetF.v
theories/T_SetF.v
theories/M_SignF.v
theories/S_SignF.v
theories/P_SignF.v
theories/T_SignF.v
