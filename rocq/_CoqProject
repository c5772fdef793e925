-Q theories Verif
theories/Base.v
theories/Date.v
theories/DateProofs.v
theories/DayCountModel.v
theories/DayCountSpec.v
theories/DayCountProofs.v
theories/PDayCount.v
theories/BusDayModel.v
theories/BusDaySpec.v
theories/BusDayProofs.v
theories/PBusDay.v
theories/TenorModel.v
theories/TenorSpec.v
theories/TenorProofs.v
theories/PTenor.v
theories/ScheduleModel.v
theories/ScheduleSpec.v
theories/ScheduleProofs.v
theories/PSchedule.v
theories/ScheduleDatesSpec.v
theories/PScheduleDates.v
theories/ScheduleDirSpec.v
theories/PScheduleDir.v
theories/LegModel.v
theories/LegSpec.v
theories/LegProofs.v
theories/LegColSpec.v
theories/LegColProofs.v
theories/PLeg.v
theories/NumModel.v
theories/CompModel.v
theories/CompSpec.v
theories/CompProofs.v
theories/PComp.v
theories/CurveModel.v
theories/CurveSpec.v
theories/CurveProofs.v
theories/PCurve.v
theories/FixingModel.v
theories/FixingSpec.v
theories/FixingProofs.v
theories/SwapCurveProofs.v
theories/PFixing.v
theories/BootModel.v
theories/BootSpec.v
theories/BootProofs.v
theories/FuturesProofs.v
theories/AsxProofs.v
theories/QuoteProofs.v
theories/PBoot.v
theories/FxModel.v
theories/FxSpec.v
theories/FxNameProofs.v
theories/FxProofs.v
theories/SmileProofs.v
theories/FxTermProofs.v
theories/PFx.v
theories/NormalModel.v
theories/NormalProofs.v
theories/BsProofs.v
theories/BlackModel.v
theories/BlackSpec.v
theories/BlackProofs.v
theories/BlackVecProofs.v
theories/BlackNumProofs.v
theories/PBlack.v
theories/GkModel.v
theories/GkSpec.v
theories/GkProofs.v
theories/GkVecProofs.v
theories/GkStrikeProofs.v
theories/PGk.v
theories/SabrModel.v
theories/SabrSpec.v
theories/SabrProofs.v
theories/SabrRootProofs.v
theories/SabrSmileProofs.v
theories/PSabr.v
theories/SabrLimitSpec.v
theories/PSabrLimit.v
theories/VolModel.v
theories/VolSpec.v
theories/VolProofs.v
theories/VolDailyProofs.v
theories/PVol.v
theories/MonteModel.v
theories/MonteSpec.v
theories/MonteProofs.v
theories/MonteLoopProofs.v
theories/PMonte.v
theories/HestonSimModel.v
theories/HestonSimSpec.v
theories/HestonSimProofs.v
theories/PHestonSim.v
theories/ChfModel.v
theories/ChfSpec.v
theories/CplxProofs.v
theories/ChfProofs.v
theories/RiccatiProofs.v
theories/RiccatiUniqueProofs.v
theories/HestonPriceProofs.v
theories/LiptonProofs.v
theories/PHestonPrice.v
theories/CosModel.v
theories/CosSpec.v
theories/CosProofs.v
theories/CosMethodProofs.v
theories/PCos.v
theories/HwModel.v
theories/HwSpec.v
theories/HwProofs.v
theories/HwSimProofs.v
theories/PHw.v
theories/PHwSim.v
theories/EnumModel.v
theories/EnumSpec.v
theories/EnumProofs.v
theories/PEnum.v
theories/TableModel.v
theories/TableSpec.v
theories/TableProofs.v
theories/PTable.v
theories/MeanSpec.v
theories/MeanProofs.v
theories/PathMeanProofs.v
theories/CsMeanProofs.v
theories/HwMeanProofs.v
theories/MomentProofs.v
theories/PMean.v
theories/HestonMeanSpec.v
theories/HestonMeanProofs.v
theories/PHestonMean.v
theories/SurfaceModel.v
theories/SurfaceSpec.v
theories/SurfaceProofs.v
theories/SurfaceSplineProofs.v
theories/SurfaceHestonProofs.v
theories/SurfaceQueryProofs.v
theories/SurfaceBuildProofs.v
theories/PSurface.v
theories/OptionletModel.v
theories/OptionletSpec.v
theories/OptionletProofs.v
theories/OptionletBootProofs.v
theories/OptionletSabrProofs.v
theories/OptionletCalibProofs.v
theories/OptionletPriceProofs.v
theories/OptionletEndProofs.v
theories/POptionlet.v
theories/ColumnModel.v
theories/ColumnSpec.v
theories/ColumnFloatProofs.v
theories/ColumnProofs.v
theories/ColumnTextProofs.v
theories/ColumnReadProofs.v
theories/ColumnDictProofs.v
theories/PColumn.v
theories/FitModel.v
theories/FitSpec.v
theories/FitProofs.v
theories/PFit.v
theories/SchemeModel.v
theories/SchemeSpec.v
theories/SchemeProofs.v
theories/RateProofs.v
theories/PScheme.v
theories/StaticSpec.v
theories/StaticProofs.v
theories/PStatic.v
theories/HwMcModel.v
theories/HwMcSpec.v
theories/HwMcProofs.v
theories/HwLimProofs.v
theories/PHwMc.v
theories/Hw2Model.v
theories/Hw2Spec.v
theories/Hw2Proofs.v
theories/PHw2.v
theories/HwCalProofs.v
theories/PHwCal.v
theories/CalKeyModel.v
theories/CalKeySpec.v
theories/PCalKey.v
theories/SincProofs.v
theories/LaplaceProofs.v
theories/HestonInvSpec.v
theories/HestonInvProofs.v
theories/PHestonInv.v
theories/FixOldModel.v
theories/PFixOld.v
theories/HestonLimitSpec.v
theories/HestonLimitProofs.v
theories/PHestonLimit.v
theories/PPde.v
theories/PHagan.v
theories/PInterest.v
theories/PCalSpread.v
theories/SurfaceInitModel.v
theories/SurfaceInitSpec.v
theories/PSurfaceInit.v
theories/PillarModel.v
theories/PillarSpec.v
theories/PPillar.v
theories/FxPillarsModel.v
theories/PFxPillars.v
