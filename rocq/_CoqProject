-Q theories Verif

theories/AddProof.v
theories/AddProof2.v
theories/AdpModel.v
theories/AdpProof.v
theories/AdpProof2.v
theories/AdpProof3.v
theories/AdpProof4.v
theories/AdpProof5.v
theories/AdpProof6.v
theories/AdpProps.v
theories/AdpSpec.v
theories/AeModel.v
theories/AeProof.v
theories/AeProof2.v
theories/AeProof3.v
theories/AeProps.v
theories/AlibModel.v
theories/AlibProof.v
theories/AlibProof2.v
theories/AlibProof3.v
theories/AlibProof4.v
theories/AlibProps.v
theories/AlibSpec.v
theories/AngModel.v
theories/AngProof.v
theories/AngProof2.v
theories/AngProps.v
theories/AngSpec.v
theories/AngleModel.v
theories/AngleProof.v
theories/AngleProps.v
theories/AnnealModel.v
theories/AnnealProof.v
theories/AnnealProps.v
theories/AnnealSpec.v
theories/ApotModel.v
theories/ApotProof.v
theories/ApotProof2.v
theories/ApotProof3.v
theories/ApotProof4.v
theories/ApotProof5.v
theories/ApotProps.v
theories/ApotSpec.v
theories/BcModel.v
theories/BcProof.v
theories/BcProof2.v
theories/BcProps.v
theories/BcSpec.v
theories/BindModel.v
theories/BindProof.v
theories/BindProof2.v
theories/BindProof3.v
theories/BindProps.v
theories/BindSpec.v
theories/BoProof.v
theories/BoProof2.v
theories/BoProof3.v
theories/BoSpec.v
theories/BondProof.v
theories/CellProof.v
theories/CellProof2.v
theories/CellProof3.v
theories/CellProps.v
theories/CellSpec.v
theories/ChemModel.v
theories/ChemProof.v
theories/ChemProps.v
theories/ChkModel.v
theories/ChkProof.v
theories/ChkProps.v
theories/ChkSpec.v
theories/ConfModel.v
theories/ConfProof.v
theories/ConfProps.v
theories/DevVecModel.v
theories/DevVecProof.v
theories/DevVecProps.v
theories/DiffEvoModel.v
theories/DiffEvoProof.v
theories/DiffEvoProof2.v
theories/DiffEvoProof3.v
theories/DiffEvoProps.v
theories/EamModel.v
theories/EamProof.v
theories/EamProof2.v
theories/EamProof3.v
theories/EamProof4.v
theories/EamProof5.v
theories/EamProof6.v
theories/EamProof7.v
theories/EamProps.v
theories/EamSpec.v
theories/EeModel.v
theories/EeProof.v
theories/EeProof2.v
theories/EeProof3.v
theories/EeProof4.v
theories/EeProof5.v
theories/EeProps.v
theories/EigModel.v
theories/EigProof.v
theories/EigProof2.v
theories/EigProof3.v
theories/EigProps.v
theories/EigSpec.v
theories/ElModel.v
theories/ElProof.v
theories/ElProof10.v
theories/ElProof11.v
theories/ElProof12.v
theories/ElProof13.v
theories/ElProof14.v
theories/ElProof2.v
theories/ElProof3.v
theories/ElProof4.v
theories/ElProof5.v
theories/ElProof6.v
theories/ElProof7.v
theories/ElProof8.v
theories/ElProof9.v
theories/ElProps.v
theories/ElSpec.v
theories/ElemModel.v
theories/ElemProof.v
theories/ElemProps.v
theories/ErrModel.v
theories/ErrProof.v
theories/ErrProof2.v
theories/ErrProps.v
theories/ErrSpec.v
theories/EtabModel.v
theories/EtabProof.v
theories/EtabProps.v
theories/FillModel.v
theories/FillProof.v
theories/FillProof2.v
theories/FillProps.v
theories/FillSpec.v
theories/ForceLoop.v
theories/FuncModel.v
theories/FuncProof.v
theories/FuncProof2.v
theories/FuncProof3.v
theories/FuncProps.v
theories/FuncSpec.v
theories/GradProof.v
theories/HeadModel.v
theories/HeadProof.v
theories/HeadProps.v
theories/HeadSpec.v
theories/HistModel.v
theories/HistProof.v
theories/HistProof2.v
theories/HistProps.v
theories/HistSpec.v
theories/ImdModel.v
theories/ImdProof.v
theories/ImdProof2.v
theories/ImdProof3.v
theories/ImdProof4.v
theories/ImdProps.v
theories/ImdSpec.v
theories/KcutModel.v
theories/KcutProof.v
theories/KcutProof2.v
theories/KcutProps.v
theories/KcutSpec.v
theories/KevModel.v
theories/KevProof.v
theories/KevProps.v
theories/KevSpec.v
theories/KimModel.v
theories/KimProof.v
theories/KimProof2.v
theories/KimProps.v
theories/KiniModel.v
theories/KiniProof.v
theories/KiniProps.v
theories/KiniSpec.v
theories/KoutModel.v
theories/KoutProof.v
theories/KoutProof2.v
theories/KoutProps.v
theories/KoutSpec.v
theories/KsupModel.v
theories/KsupProof.v
theories/KsupProps.v
theories/KsupSpec.v
theories/LammpsModel.v
theories/LammpsProof.v
theories/LammpsProof2.v
theories/LammpsProof3.v
theories/LammpsProof4.v
theories/LammpsProof5.v
theories/LammpsProps.v
theories/LammpsSpec.v
theories/LineMinModel.v
theories/LineMinProof.v
theories/LineMinProps.v
theories/LinesModel.v
theories/LinesProof.v
theories/LinesProps.v
theories/ListUtil.v
theories/LocModel.v
theories/LocProof.v
theories/LocProps.v
theories/LoopUtil.v
theories/MeamModel.v
theories/MeamProof.v
theories/MeamProof2.v
theories/MeamProof3.v
theories/MeamProof4.v
theories/MeamProof5.v
theories/MeamProps.v
theories/MeamSpec.v
theories/MemoryModel.v
theories/MemoryProof.v
theories/MemoryProps.v
theories/MpiModel.v
theories/MpiProof.v
theories/MpiProof2.v
theories/MpiProps.v
theories/NameModel.v
theories/NameProof.v
theories/NameProof2.v
theories/NameProps.v
theories/NameSpec.v
theories/NbrModel.v
theories/NbrProof.v
theories/NbrProof2.v
theories/NbrProof3.v
theories/NbrProps.v
theories/NormModel.v
theories/NormProof.v
theories/NormProps.v
theories/NormSpec.v
theories/PairIndexModel.v
theories/PairIndexProof.v
theories/PairIndexProps.v
theories/PairModel.v
theories/PairProof.v
theories/PairProof2.v
theories/PairProof3.v
theories/PairProof4.v
theories/PairProps.v
theories/PairSpec.v
theories/ParamsModel.v
theories/ParamsProof.v
theories/ParamsProps.v
theories/PertModel.v
theories/PertProof.v
theories/PertProof2.v
theories/PertProps.v
theories/PlotModel.v
theories/PlotProof.v
theories/PlotProps.v
theories/PlotSpec.v
theories/PowellModel.v
theories/PowellProof.v
theories/PowellProof2.v
theories/PowellProof3.v
theories/PowellProps.v
theories/ProcModel.v
theories/ProcProof.v
theories/ProcProps.v
theories/PtrModel.v
theories/PtrProof.v
theories/PtrProof2.v
theories/PtrProof3.v
theories/PtrProps.v
theories/PtrSpec.v
theories/RcutModel.v
theories/RcutProof.v
theories/RcutProps.v
theories/ReadModel.v
theories/ReadProof.v
theories/ReadProof2.v
theories/ReadProof3.v
theories/ReadProof4.v
theories/ReadProof5.v
theories/ReadProof6.v
theories/ReadProof7.v
theories/ReadProps.v
theories/ReadSpec.v
theories/RepProof.v
theories/RepProof2.v
theories/RepProps.v
theories/RepSpec.v
theories/RescaleModel.v
theories/RescaleProof.v
theories/RescaleProof2.v
theories/RescaleProof3.v
theories/RescaleProof4.v
theories/RescaleProof5.v
theories/RescaleProof6.v
theories/RescaleProof7.v
theories/RescaleProof8.v
theories/RescaleProof9.v
theories/RescaleProps.v
theories/RescaleSpec.v
theories/RmeamModel.v
theories/RmeamProof.v
theories/RmeamProof2.v
theories/RmeamProof3.v
theories/RmeamProof4.v
theories/RmeamProof5.v
theories/RmeamProof6.v
theories/RmeamProof7.v
theories/RmeamProof8.v
theories/RmeamProps.v
theories/RmeamSpec.v
theories/RngModel.v
theories/RngProof.v
theories/RngProof2.v
theories/RngProof3.v
theories/RngProof4.v
theories/RngProof5.v
theories/RngProof6.v
theories/RngProps.v
theories/RngSpec.v
theories/RtModel.v
theories/RtProof.v
theories/RtProof2.v
theories/RtProof3.v
theories/RtProof4.v
theories/RtProps.v
theories/RtSpec.v
theories/RunModel.v
theories/RunProof.v
theories/RunProps.v
theories/ScaleModel.v
theories/ScaleProof.v
theories/ScaleProps.v
theories/SelfProof.v
theories/SelfProps.v
theories/SimannModel.v
theories/SimannNorm.v
theories/SimannProof.v
theories/SimannProof2.v
theories/SimannProps.v
theories/SlotModel.v
theories/SlotProof.v
theories/SlotProps.v
theories/SlotSpec.v
theories/SplineModel.v
theories/SplineProof.v
theories/SplineProof2.v
theories/SplineProof3.v
theories/SplineProof4.v
theories/SplineProof5.v
theories/SplineProps.v
theories/SplineSpec.v
theories/SwModel.v
theories/SwProof.v
theories/SwProof2.v
theories/SwProof3.v
theories/SwProof4.v
theories/SwProof5.v
theories/SwProps.v
theories/SwSpec.v
theories/TabModel.v
theories/TabProof.v
theories/TabProof2.v
theories/TabProof3.v
theories/TabProof4.v
theories/TabProof5.v
theories/TabProof6.v
theories/TabProps.v
theories/TabSpec.v
theories/TabSpec2.v
theories/TempModel.v
theories/TempProof.v
theories/TempProps.v
theories/TempSpec.v
theories/TersModel.v
theories/TersProof.v
theories/TersProof2.v
theories/TersProof3.v
theories/TersProof4.v
theories/TersProof5.v
theories/TersProps.v
theories/TersSpec.v
theories/ThreeProof.v
theories/ThreeProof2.v
theories/ThreeProof3.v
theories/ThreeProof4.v
theories/ThreeProof5.v
theories/ThreeSpec.v
theories/UpdModel.v
theories/UpdProof.v
theories/UpdProps.v
theories/UpdSpec.v
theories/UqModel.v
theories/UqProof.v
theories/UqProof2.v
theories/UqProof3.v
theories/UqProof4.v
theories/UqProps.v
theories/UqSpec.v
theories/Vec.v
