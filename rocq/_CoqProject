-Q theories Verif
theories/Num.v
theories/Simd.v
theories/Vec.v
theories/Rect.v
theories/Box.v
theories/Mat.v
theories/Geo.v
theories/Quat.v
theories/OrdThy.v
theories/FloatThy.v
theories/BoxThy.v
theories/B32Setup.v
theories/FloatLem.v
theories/Hist.v
theories/Props_Box.v
theories/Props_Vec.v
theories/XSetup.v
theories/Props_VecX.v
theories/Props_RectX.v
theories/Props_Rect.v
theories/RMat.v
theories/Props_MatX.v
theories/Props_MatX2.v
theories/Props_MatX3.v
theories/Props_MatX4.v
theories/Props_Mat.v
theories/Props_Box2d.v
theories/Props_Box2dX.v
theories/RGeo.v
theories/GeoBase.v
theories/Props_PlaneX.v
theories/Props_SphereX.v
theories/Props_TriX.v
theories/Props_RayX.v
theories/Props_Geo.v
theories/Props_GeoX.v
theories/RQuat.v
theories/TrigThy.v
theories/Props_QuatX.v
theories/Props_QuatX2.v
theories/Props_Quat.v
theories/Props_EulerX.v
theories/Props_DecompX.v
theories/Alloc.v
theories/Props_Alloc.v
theories/Once.v
theories/Props_Once.v
theories/Alias.v
theories/Props_Alias.v
theories/Props_AliasX.v
theories/Props_BackendX.v
theories/Props_BackendX2.v
theories/Props_VecOps.v
theories/Props_Simd.v
theories/Neon.v
theories/ErrThy.v
theories/Props_Err.v
theories/Props_Err2.v
theories/Props_Err3.v
theories/Props_Eq.v
theories/Props_Init.v
theories/Props_EulerX2.v
theories/Props_Euler.v
theories/Props_Simd4x4.v
theories/Props_Simd4x4X.v
theories/Props_MatX5.v
theories/Props_Dim.v
theories/Props_Err4.v
theories/Props_Dec.v
theories/Intrin.v
theories/Props_Intrin.v
theories/Gobject.v
theories/Props_Gobject.v
theories/ErrEx.v
theories/Props_Err5.v
theories/Props_Drift.v
theories/Props_Err6.v
theories/Props_Bounds.v
theories/Props_Drift2.v
theories/Props_Lerp.v
theories/Props_Grid.v
theories/Props_Grid2.v
theories/Props_Pick.v
theories/Props_Rot.v
theories/Props_RayBox.v
theories/Props_Proj.v
theories/Props_RaySph.v
theories/Props_RayPt.v
theories/Props_Look.v
theories/Props_RayTri.v
theories/Props_TriF.v
theories/Props_Sph.v
theories/Props_Frus.v
theories/Props_EulF.v
theories/Props_Bary.v
theories/Props_Slerp.v
theories/Props_Dist.v
theories/Props_Undo.v
theories/Props_FromMat.v
theories/Props_Turn.v
theories/Props_QAng.v
theories/Props_ToAxis.v
theories/Props_NoNan.v
theories/Props_ToEul.v
theories/Props_MatEul.v
theories/Props_Spin.v
theories/Props_Walk.v
theories/Props_Ease.v
theories/Props_Damage.v
