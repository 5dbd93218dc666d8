-Q theories Verif
theories/Base.v
theories/RFacts.v
theories/StatusModel.v
theories/StatusProofs.v
theories/P_Status.v
theories/UtilModel.v
theories/UtilSpec.v
theories/UtilProofs.v
theories/P_Util.v
theories/CellModel.v
theories/CellSpec.v
theories/CellProofs.v
theories/P_Cell.v
theories/DataModel.v
theories/DataSpec.v
theories/DataProofs.v
theories/P_Data.v
theories/CoolModel.v
theories/CoolSpec.v
theories/CoolProofs.v
theories/P_Cool.v
theories/ModuleModel.v
theories/ModuleSpec.v
theories/ModuleProofs.v
theories/ModuleProofs2.v
theories/ModuleProofs3.v
theories/ModuleProofs4.v
theories/ModuleProofs5.v
theories/ModuleProofs6.v
theories/ModuleProofs7.v
theories/ModuleProofs8.v
theories/ModuleProofs9.v
theories/ModuleExamples.v
theories/P_Module.v
theories/ObjModel.v
theories/ObjSpec.v
theories/ObjProofs.v
theories/ObjProofs2.v
theories/P_Obj.v
theories/BattModel.v
theories/BattSpec.v
theories/BattProofs.v
theories/P_Batt.v
theories/P_Batt2.v
theories/CyclerModel.v
theories/CyclerSpec.v
theories/CyclerProofs.v
theories/CyclerProofs2.v
theories/CyclerProofs3.v
theories/CyclerProofs4.v
theories/P_Cycler.v
theories/P_CoolFan.v
theories/ProcModel.v
theories/ProcSpec.v
theories/ProcProofs.v
theories/ProcProofs2.v
theories/ProcProofs3.v
theories/P_Proc.v
theories/SpmModel.v
theories/SpmSpec.v
theories/SpmProofs.v
theories/SpmReal.v
theories/SpmDiff.v
theories/SpmAge.v
theories/SpmRound.v
theories/SpmScale.v
theories/SpmUnitModel.v
theories/SpmWitness.v
theories/P_Spm.v
theories/FitModel.v
theories/FitSpec.v
theories/FitProofs.v
theories/FitProofs2.v
theories/P_Fit.v
theories/CsvModel.v
theories/CsvSpec.v
theories/CsvProofs.v
theories/P_Csv.v
theories/DischModel.v
theories/DischSpec.v
theories/DischProofs.v
theories/P_Disch.v
theories/FactModel.v
theories/FactSpec.v
theories/FactProofs.v
theories/FactProofs2.v
theories/P_Fact.v
theories/McmcModel.v
theories/McmcSpec.v
theories/McmcProofs.v
theories/P_Mcmc.v
theories/StoreModel.v
theories/StoreSpec.v
theories/StoreProofs.v
theories/P_Store.v
theories/PhysSpec.v
theories/PhysProofs.v
theories/PhysToy.v
theories/P_Phys.v
theories/DegSpec.v
theories/DegProofs.v
theories/P_Deg.v
theories/SafeSpec.v
theories/SafeProofs.v
theories/SafeCells.v
theories/SafeReal.v
theories/SafeBatt.v
theories/P_Safe.v
theories/TempSpec.v
theories/TempProofs.v
theories/P_Temp.v
theories/FloatSpec.v
theories/FloatFacts.v
theories/FloatEcm.v
theories/FloatCyc.v
theories/P_Float.v
theories/LawSpec.v
theories/LawProofs.v
theories/LawToy.v
theories/P_Law.v
theories/P_Accept.v
theories/PackModel.v
theories/PackSpec.v
theories/PackProofs.v
theories/PackToy.v
theories/P_Pack.v
theories/ScaleSpec.v
theories/ScaleProofs.v
theories/ScaleProofs2.v
theories/P_Scale.v
theories/FleetModel.v
theories/FleetSpec.v
theories/FleetProofs.v
theories/FleetLaws.v
theories/FleetProofs2.v
theories/FleetProofs3.v
theories/FleetToy.v
theories/P_Fleet.v
theories/FloatSpmSpec.v
theories/FloatSpm.v
theories/FloatSpm2.v
theories/P_FloatSpm.v
theories/FloatIntSpec.v
theories/FloatInt.v
theories/P_FloatInt.v
theories/ReportModel.v
theories/ReportSpec.v
theories/ReportProofs.v
theories/P_Report.v
theories/FloatChargeSpec.v
theories/FloatCharge.v
theories/P_FloatCharge.v
theories/DriveModel.v
theories/DriveSpec.v
theories/DriveProofs.v
theories/DriveGitt.v
theories/DriveToy.v
theories/P_Drive.v
theories/PrepModel.v
theories/PrepSpec.v
theories/PrepProofs.v
theories/PrepCycler.v
theories/PrepTrack.v
theories/P_Prep.v
theories/FloatPackSpec.v
theories/FloatPack.v
theories/P_FloatPack.v
theories/RejectSpec.v
theories/P_Reject.v
theories/P_HeatP.v
theories/ThermSpec.v
theories/ThermProofs.v
theories/P_Therm.v
theories/KinSpec.v
theories/KinProofs.v
theories/P_Kin.v
theories/EnergySpec.v
theories/EnergyProofs.v
theories/P_Energy.v
theories/EnergyPackSpec.v
theories/EnergyPackProofs.v
theories/P_EnergyPack.v
theories/ExactSpec.v
theories/ExactProofs.v
theories/ExactSpm.v
theories/P_Exact.v
theories/ConvSpec.v
theories/ConvProofs.v
theories/P_Conv.v
theories/VoltSpec.v
theories/VoltProofs.v
theories/P_Volt.v
theories/P_ConvStr.v
theories/ExactPackSpec.v
theories/ExactPackProofs.v
theories/P_ExactPack.v
theories/LadderSpec.v
theories/LadderProofs.v
theories/P_Ladder.v
theories/MirrorSpec.v
theories/MirrorProofs.v
theories/P_Mirror.v
theories/LadderStrSpec.v
theories/P_LadderStr.v
theories/MonoSpec.v
theories/MonoProofs.v
theories/MonoVolt.v
theories/MonoSecant.v
theories/MonoReal.v
theories/P_Mono.v
theories/MixSpec.v
theories/P_Mix.v
theories/P_Fresh.v
