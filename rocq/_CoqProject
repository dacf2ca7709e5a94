-Q theories Verif
theories/Base.v
theories/Dbl.v
theories/DigitsProofs.v
theories/DblProofs.v
theories/Json.v
theories/JsonSpec.v
theories/JsonProofs.v
theories/JsonNumProofs.v
theories/JsonExpProofs.v
theories/JsonRtProofs.v
theories/JsonExtraProofs.v
theories/JsonThms.v
theories/Stream.v
theories/Pdg.v
theories/Event.v
theories/StreamProofs.v
theories/EventSpec.v
theories/EventProofs.v
theories/EventJsonProofs.v
theories/HepNumProofs.v
theories/HepSpec.v
theories/HepProofs.v
theories/EventThms.v
theories/Output.v
theories/OutputSpec.v
theories/OutputProofs.v
theories/OutputLoopProofs.v
theories/OutputReadProofs.v
theories/OutputRunProofs.v
theories/OutputThms.v
theories/EventHeap.v
theories/EventHeapSpec.v
theories/EventHeapProofs.v
theories/EventHeapThms.v
theories/Strings.v
theories/StringsThms.v
theories/Names.v
theories/React.v
theories/PdgThms.v
theories/Levels.v
theories/LevelsProofs.v
theories/LevelsTextProofs.v
theories/MatEl.v
theories/LevelsThms.v
theories/LevelsReadThms.v
theories/MatElThms.v
theories/MatElFailThms.v
theories/Kin.v
theories/KinSpec.v
theories/KinProofs.v
theories/KinThms.v
theories/Rot.v
theories/RotSpec.v
theories/RotProofs.v
theories/RotThms.v
theories/Sample.v
theories/SampleProofs.v
theories/SampleThms.v
theories/DblArith.v
theories/SampleDbl.v
theories/SampleDblThms.v
theories/DrawDblThms.v
theories/NucReact.v
theories/NucSpec.v
theories/NucProofs.v
theories/NucThms.v
theories/NucEventThms.v
theories/NucRefuseThms.v
theories/XsThms.v
theories/Mass.v
theories/MassThms.v
theories/Decay.v
theories/DecaySpec.v
theories/DecayProofs.v
theories/CascadeThms.v
theories/ChannelProofs.v
theories/SelectThms.v
theories/WidthThms.v
theories/WidthEdgeThms.v
theories/DeexSpec.v
theories/DeexProofs.v
theories/DeexThms.v
theories/DeexCases.v
theories/ChainThms.v
theories/Target.v
theories/TargetThms.v
theories/TargetMoreThms.v
theories/XReal.v
theories/Grid.v
theories/GridThms.v
theories/GridZeroThms.v
theories/Quad.v
theories/QuadThms.v
theories/Cheb.v
theories/ChebProofs.v
theories/ChebThms.v
theories/Source.v
theories/SourceThms.v
theories/Gen.v
theories/GenThms.v
theories/SourceMoreThms.v
theories/Run.v
theories/RunThms.v
theories/RunCases.v
theories/Logger.v
theories/LoggerThms.v
theories/Files.v
theories/FilesThms.v
theories/Struct.v
theories/StructProofs.v
theories/StructThms.v
theories/StructCases.v
theories/Ground.v
theories/GroundThms.v
theories/Config.v
theories/ConfigSpec.v
theories/ConfigProofs.v
theories/ConfigThms.v
theories/ConfigRunThms.v
theories/ConfigFailThms.v
theories/RootSource.v
theories/RootSourceThms.v
theories/ConfigCases.v
theories/ConfigCaseThms.v
theories/Dens.v
theories/DensThms.v
theories/Strength.v
theories/StrengthThms.v
theories/Optical.v
theories/OpticalThms.v
theories/OpticalRunThms.v
theories/OpticalWaveThms.v
theories/Talys.v
theories/TalysThms.v
theories/LogConf.v
theories/LogConfThms.v
theories/JsonHeap.v
theories/JsonHeapSpec.v
theories/JsonHeapProofs.v
theories/JsonHeapThms.v
theories/Main.v
theories/MainSpec.v
theories/MainProofs.v
theories/MainThms.v
theories/MainOptThms.v
theories/Fft.v
theories/FftMath.v
theories/FftStep.v
theories/FftRadix.v
theories/FftGeneral.v
theories/FftTable.v
theories/FftWhole.v
theories/FftCost.v
theories/FftThms.v
theories/Models.v
theories/ModelsThms.v
theories/ModelsEnergyThms.v
theories/MarSum.v
theories/MarSumThms.v
theories/Brent.v
theories/BrentProofs.v
theories/BrentThms.v
theories/BrentSpectra.v
theories/BrentSourceThms.v
theories/Fermi.v
theories/FermiThms.v
theories/FermiPosThms.v
theories/Startup.v
theories/StartupThms.v
theories/Status.v
theories/StatusThms.v
theories/Report.v
theories/ReportThms.v
theories/ReportNumThms.v
theories/Tools.v
theories/ToolsDumpThms.v
theories/ToolsPrintThms.v
theories/EventRefuseThms.v
theories/Geant.v
theories/GeantThms.v
theories/Macros.v
theories/MacrosThms.v
theories/Quadratic.v
theories/QuadraticThms.v
theories/MacroReader.v
theories/MacroReaderThms.v
theories/Tables.v
theories/TablesThms.v
theories/HepRefuseThms.v
theories/Iter.v
theories/IterThms.v
theories/DecayReport.v
theories/DecayReportThms.v
theories/TargetDbl.v
theories/TargetDblThms.v
theories/MassRefuseThms.v
theories/WidthCases.v
theories/GenDbl.v
theories/GenDblThms.v
theories/Twister.v
theories/TwisterThms.v
