-Q theories Verif
theories/Num.v
theories/Py.v
theories/Numeric.v
theories/Curve.v
theories/Vec.v
theories/Geom.v
theories/Angle.v
theories/Intersect.v
theories/Registry.v
theories/DiffGeom.v
theories/Views.v
theories/Interp.v
theories/Splines.v
theories/Splines2.v
theories/Periodic.v
theories/Smooth.v
theories/Windows.v
theories/WindowSpec.v
theories/WindowProofs.v
theories/WindowProofs2.v
theories/Curves.v
theories/Cache.v
theories/Point.v
theories/Iter.v
theories/Spec.v
theories/ListFacts.v
theories/SliceProofs.v
theories/ArrayProofs.v
theories/CurveProofs.v
theories/InsertProofs.v
theories/CurveProofs2.v
theories/Program.v
theories/ProgramProofs.v
theories/CurveProofs3.v
theories/Fixtures.v
theories/Properties_Container.v
theories/Properties_Container2.v
theories/VecFacts.v
theories/RankProofs.v
theories/GeomSpec.v
theories/GeomProofs.v
theories/GeomProofs2.v
theories/GeomProofs3.v
theories/GeomProofs4.v
theories/Properties_Geom.v
theories/IntersectProofs.v
theories/IntersectProofs2.v
theories/IntersectProofs3.v
theories/IntersectProofs4.v
theories/RegistryProofs.v
theories/IntersectProofs5.v
theories/Properties_Intersect.v
theories/RegistryProofs2.v
theories/Properties_Registry.v
theories/DiffGeomProofs.v
theories/DiffGeomProofs2.v
theories/DiffGeomProofs3.v
theories/DiffGeomProofs4.v
theories/DiffGeomProofs5.v
theories/Properties_DiffGeom.v
theories/InterpProofs.v
theories/InterpProofs2.v
theories/InterpProofs3.v
theories/Properties_Interp.v
theories/SmoothProofs.v
theories/Properties_Smooth.v
theories/Properties_Window.v
theories/CurvesProofs.v
theories/HelixProofs.v
theories/Properties_Curves.v
theories/Properties_Helix.v
theories/CacheProofs.v
theories/CacheProofs2.v
theories/Properties_Cache.v
theories/PointProofs.v
theories/Properties_Point.v
theories/Properties_Insert.v
theories/SplineProofs.v
theories/SplineProofs2.v
theories/Properties_Splines.v
theories/FloatFacts.v
theories/FloatFacts2.v
theories/FloatProofs.v
theories/ViewsProofs.v
theories/FloatProofs2.v
theories/FloatProofs3.v
theories/NanProofs.v
theories/Properties_Float.v
theories/Properties_More.v
theories/SplineProofs3.v
theories/SplineProofs4.v
theories/SplineProofs5.v
theories/SplineProofs6.v
theories/PeriodicProofs.v
theories/PeriodicProofs2.v
theories/SplineProofs7.v
theories/Properties_Splines2.v
theories/SplineProofs8.v
theories/Properties_Splines3.v
theories/Csaps.v
theories/CsapsProofs.v
theories/CsapsProofs2.v
theories/CsapsProofs3.v
theories/Properties_Splines4.v
theories/Warn.v
theories/WarnProofs.v
theories/WarnProofs2.v
theories/Properties_Warn.v
theories/Plot.v
theories/PlotProofs.v
theories/Properties_Plot.v
theories/Properties_More2.v
theories/AverageProofs.v
theories/PeriodicProofs3.v
theories/RigidProofs.v
theories/Properties_Rigid.v
theories/Properties_Affine.v
theories/Properties_Periodic.v
theories/Properties_Views.v
theories/Properties_Nan.v
theories/SwapProofs.v
theories/Properties_Swap.v
theories/Savgol.v
theories/SavgolProofs.v
theories/SavgolProofs2.v
theories/Properties_Savgol.v
theories/FitSpline.v
theories/FitProofs.v
theories/FitProofs2.v
theories/FitProofs3.v
theories/Properties_Fit.v
theories/OrthoProofs.v
theories/SvdProofs.v
theories/SvdProofs2.v
theories/SvdRank.v
theories/SvdSpec.v
theories/SvdProofs3.v
theories/SvdProofs4.v
theories/SvdProofs5.v
theories/SvdProofs6.v
theories/Properties_Svd.v
theories/Repr.v
theories/ReprSpec.v
theories/ReprProofs.v
theories/ReprProofs2.v
theories/Properties_Repr.v
theories/IntProofs.v
theories/Properties_Int.v
theories/Int64.v
theories/Int64Proofs.v
theories/Int64Proofs2.v
theories/Properties_Int64.v
theories/FloatFacts3.v
theories/FloatLinearProofs.v
theories/Properties_FloatLinear.v
theories/IntN.v
theories/IntNProofs.v
theories/Properties_IntN.v
theories/IntersectTol.v
theories/IntersectTolProofs.v
theories/Properties_IntersectTol.v
theories/ResampleProofs.v
theories/Properties_Resample.v
theories/SmoothLenProofs.v
theories/Properties_SmoothLen.v
theories/FloatN.v
theories/FloatNFacts.v
theories/FloatNProofs.v
theories/FloatNProofs2.v
theories/FloatNProofs3.v
theories/Properties_FloatN.v
theories/Errors.v
theories/ErrorsProofs.v
theories/Properties_Errors.v
theories/Properties_Errors2.v
theories/Properties_Int64b.v
theories/SampleProofs.v
theories/SampleProofs2.v
theories/SampleProofs3.v
theories/Properties_Sampling.v
theories/ConvergeProofs.v
theories/ConvergeProofs2.v
theories/Properties_Converge.v
theories/ConvergeProofs3.v
theories/Properties_Converge2.v
theories/CrossProofs.v
theories/Properties_Cross.v
theories/SmoothConvProofs.v
theories/Properties_SmoothConv.v
theories/TorsionProofs.v
theories/Properties_Torsion.v
theories/FloatDerivProofs.v
theories/Properties_FloatDeriv.v
theories/FloatCurvProofs.v
theories/Properties_FloatCurv.v
theories/FloatFrenetProofs.v
theories/Properties_FloatFrenet.v
theories/LocalProofs.v
theories/Properties_Local.v
theories/LocalProofs2.v
theories/Properties_Local2.v
theories/LocalProofs3.v
theories/Properties_Local3.v
theories/CoordProofs.v
theories/Properties_Coord.v
theories/Properties_Turn.v
theories/Properties_Pointwise.v
