-Q theories Verif

theories/Base/Py.v
theories/Base/Paths.v
theories/Model/Mech.v
theories/Spec/TrimSpec.v
theories/Proofs/PyFacts.v
theories/Proofs/TrimFacts.v
theories/Spec/Samples.v
theories/Proofs/SampleFacts.v
theories/Proofs/TrimMore.v
theories/Props/TrimProps.v
theories/Base/Num.v
theories/Model/Matrices.v
theories/Spec/MatrixSpec.v
theories/Proofs/NumFacts.v
theories/Proofs/MatrixFacts.v
theories/Model/Graph.v
theories/Spec/GraphSpec.v
theories/Proofs/DfsFacts.v
theories/Proofs/MatrixMore.v
theories/Props/MatrixProps.v
theories/Proofs/DijkstraFacts.v
theories/Proofs/ImportanceFacts.v
theories/Base/B64.v
theories/Proofs/GraphMore.v
theories/Props/GraphProps.v
theories/Base/XNum.v
theories/Model/World.v
theories/Model/Metrics.v
theories/Model/Drivers.v
theories/Spec/MetricSpec.v
theories/Proofs/MetricFacts.v
theories/Props/MetricProps.v
theories/Spec/DriverSpec.v
theories/Proofs/StepFacts.v
theories/Proofs/StepInst.v
theories/Proofs/LoopFacts.v
theories/Proofs/RunFacts.v
theories/Spec/DriverSamples.v
theories/Proofs/ReduceFacts.v
theories/Props/ReduceProps.v
theories/Proofs/LoopForward.v
theories/Proofs/DriverFacts.v
theories/Proofs/DriverSampleFacts.v
theories/Props/DriverProps.v
theories/Model/Sensitivity.v
theories/Spec/SensitivitySpec.v
theories/Proofs/SaFacts.v
theories/Proofs/SaMore.v
theories/Proofs/SaOrderFacts.v
theories/Proofs/SaOrderFloat.v
theories/Proofs/SpecialErrors.v
theories/Proofs/SaOrderEx.v
theories/Proofs/SaPkg.v
theories/Proofs/SaRef.v
theories/Spec/SaSamples.v
theories/Spec/SaOrderSpec.v
theories/Proofs/SaSampleFacts.v
theories/Props/SensitivityProps.v
theories/Props/SaOrderProps.v
theories/Model/Simulation.v
theories/Spec/SimSpec.v
theories/Proofs/SimFacts.v
theories/Proofs/SimMore.v
theories/Spec/SimSamples.v
theories/Props/SimProps.v
theories/Model/Sampling.v
theories/Proofs/ProgFacts.v
theories/Spec/SamplingSpec.v
theories/Proofs/SamplingFacts.v
theories/Proofs/SamplingMore.v
theories/Proofs/SamplingEnd.v
theories/Proofs/SamplingWhole.v
theories/Proofs/SamplingTop.v
theories/Spec/SamplingSamples.v
theories/Proofs/SamplingLate.v
theories/Props/SamplingProps.v
theories/Model/Inputs.v
theories/Spec/InputSpec.v
theories/Proofs/InputFacts.v
theories/Proofs/InputMore.v
theories/Proofs/InputEnd.v
theories/Spec/InputSamples.v
theories/Proofs/InputChecks.v
theories/Props/InputProps.v
theories/Model/Main.v
theories/Spec/MainSpec.v
theories/Spec/ArgsSpec.v
theories/Proofs/ArgsFacts.v
theories/Proofs/MainFacts.v
theories/Proofs/MainEnd.v
theories/Proofs/MainMore.v
theories/Spec/MainSamples.v
theories/Proofs/MainCli.v
theories/Props/MainProps.v
theories/Model/FloatDrivers.v
theories/Proofs/FloatFacts.v
theories/Spec/FloatSpec.v
theories/Proofs/FloatDriverFacts.v
theories/Props/FloatProps.v
theories/Model/Chem.v
theories/Model/Compare.v
theories/Spec/CompareSpec.v
theories/Proofs/SortFacts.v
theories/Proofs/CompareFacts.v
theories/Proofs/CompareSelf.v
theories/Spec/CompareSamples.v
theories/Spec/CompareDoubleSpec.v
theories/Spec/CompareDoubleSamples.v
theories/Proofs/CompareEx.v
theories/Proofs/CompareMono.v
theories/Proofs/CompareDoubleFacts.v
theories/Proofs/CompareDoubleEx.v
theories/Props/CompareProps.v
theories/Props/CompareDoubleProps.v
theories/Base/Text.v
theories/Model/Chemkin.v
theories/Spec/TextSpec.v
theories/Proofs/FormatFacts.v
theories/Spec/ChemkinSpec.v
theories/Proofs/TextFacts.v
theories/Proofs/WrapFacts.v
theories/Proofs/ChemkinFacts.v
theories/Spec/CardSpec.v
theories/Spec/ExportSpec.v
theories/Spec/ExportSamples.v
theories/Proofs/CardFacts.v
theories/Proofs/ExportFacts.v
theories/Proofs/ExportMain.v
theories/Proofs/ExportEx.v
theories/Props/ChemkinProps.v
theories/Model/Psr.v
theories/Spec/PsrSpec.v
theories/Spec/PsrSamples.v
theories/Proofs/PsrFacts.v
theories/Proofs/PsrNum.v
theories/Proofs/PsrMarch.v
theories/Proofs/PsrTop.v
theories/Proofs/PsrMore.v
theories/Proofs/PsrSteps.v
theories/Proofs/PsrEx.v
theories/Proofs/PsrFinal.v
theories/Props/PsrProps.v
theories/Model/PsrJac.v
theories/Spec/PsrJacSpec.v
theories/Spec/PsrJacSamples.v
theories/Proofs/PsrJacFacts.v
theories/Proofs/PsrJacFinal.v
theories/Props/JacobianProps.v
theories/Model/FloatMatrix.v
theories/Model/FloatPfa.v
theories/Spec/FloatMatrixSpec.v
theories/Proofs/FloatArith.v
theories/Proofs/FloatSums.v
theories/Proofs/FloatMatrixFacts.v
theories/Proofs/FloatMatrixTop.v
theories/Proofs/FloatDijkstra.v
theories/Proofs/FloatImportance.v
theories/Proofs/FloatMatrixFinal.v
theories/Proofs/FloatPfaFacts.v
theories/Proofs/FloatPfaFinal.v
theories/Spec/FloatSamples.v
theories/Proofs/FloatSampleFacts.v
theories/Props/FloatMatrixProps.v
theories/Props/FloatPfaProps.v
theories/Model/FloatSampling.v
theories/Spec/FloatSamplingSpec.v
theories/Proofs/FloatSamplingFacts.v
theories/Proofs/FloatErrorFacts.v
theories/Spec/FloatProfiles.v
theories/Proofs/FloatProfileFacts.v
theories/Props/FloatSamplingProps.v
theories/Model/SaveText.v
theories/Spec/SaveSpec.v
theories/Proofs/SaveNumFacts.v
theories/Proofs/SaveTextFacts.v
theories/Props/SaveTextProps.v
theories/Model/FloatRun.v
theories/Spec/FloatRunSpec.v
theories/Spec/FloatRunSamples.v
theories/Proofs/FloatThrFacts.v
theories/Proofs/FloatTop.v
theories/Proofs/FloatRunFacts.v
theories/Proofs/FloatRunMain.v
theories/Proofs/FloatRunExact.v
theories/Proofs/FloatRunSampleFacts.v
theories/Props/FloatRunProps.v
theories/Model/DoubleError.v
theories/Model/CompareDouble.v
theories/Spec/DoubleErrorSpec.v
theories/Spec/DoubleErrorSamples.v
theories/Proofs/DoubleErrorFacts.v
theories/Proofs/DoubleErrorMain.v
theories/Props/DoubleErrorProps.v
theories/Spec/ReadSpec.v
theories/Proofs/ReadFacts.v
theories/Props/ReadProps.v
theories/Model/PsrCase.v
theories/Spec/PsrCaseSpec.v
theories/Spec/PsrCaseSamples.v
theories/Proofs/PsrCaseFacts.v
theories/Proofs/PsrCaseMain.v
theories/Props/PsrCaseProps.v
theories/Model/IgnCase.v
theories/Spec/IgnCaseSpec.v
theories/Spec/IgnCaseSamples.v
theories/Proofs/IgnCaseFacts.v
theories/Proofs/IgnCaseCalls.v
theories/Proofs/IgnCaseMain.v
theories/Props/IgnCaseProps.v
theories/Model/FlameCase.v
theories/Spec/FlameCaseSpec.v
theories/Proofs/FlameCaseFacts.v
theories/Props/FlameCaseProps.v
theories/Model/Cli.v
theories/Spec/CliSpec.v
theories/Proofs/CliFacts.v
theories/Proofs/CliInt.v
theories/Proofs/CliMain.v
theories/Proofs/CliEnd.v
theories/Props/CliProps.v
theories/Model/Pool.v
theories/Proofs/PoolFacts.v
theories/Spec/PoolSamples.v
theories/Proofs/PoolTop.v
theories/Props/PoolProps.v
theories/Model/FloatSimulation.v
theories/Model/FloatMain.v
theories/Spec/FloatMainSpec.v
theories/Spec/FloatSimulationSpec.v
theories/Proofs/FloatSimulationFacts.v
theories/Spec/FloatSimulationSamples.v
theories/Proofs/FloatSimulationEx.v
theories/Props/FloatSimulationProps.v
theories/Spec/FloatMainSamples.v
theories/Proofs/FloatMainFacts.v
theories/Proofs/FloatMainEx.v
theories/Props/FloatMainProps.v
theories/Proofs/AgainFacts.v
theories/Props/AgainProps.v
theories/Spec/StaleSpec.v
theories/Proofs/StaleFacts.v
theories/Proofs/StaleEx.v
theories/Props/StaleProps.v
theories/Spec/KineticsSpec.v
theories/Proofs/KineticsFacts.v
theories/Proofs/KineticsEx.v
theories/Props/KineticsProps.v
theories/Model/PoolMain.v
theories/Proofs/PoolMainFacts.v
theories/Props/PoolMainProps.v
theories/Model/Program.v
theories/Spec/ProgramSpec.v
theories/Spec/ProgramSamples.v
theories/Proofs/ProgramFacts.v
theories/Proofs/ProgramEx.v
theories/Props/ProgramProps.v
theories/Spec/Attributes.v
theories/Proofs/AttributeFacts.v
theories/Model/ChemkinDouble.v
theories/Spec/ChemkinDoubleSpec.v
theories/Spec/ChemkinDoubleSamples.v
theories/Proofs/ChemkinDoubleFacts.v
theories/Proofs/ChemkinDoubleEx.v
theories/Props/ChemkinDoubleProps.v
theories/Spec/WriteSpec.v
theories/Spec/WriteSamples.v
theories/Proofs/WriteFacts.v
theories/Proofs/WriteEx.v
theories/Props/WriteProps.v
theories/Spec/FloatAgreeSpec.v
theories/Spec/FloatAgreeSamples.v
theories/Proofs/FloatClimb.v
theories/Proofs/FloatAgreeFacts.v
theories/Proofs/FloatAgreeEx.v
theories/Props/FloatAgreeProps.v
theories/Spec/FloatWholeSpec.v
theories/Spec/FloatWholeSamples.v
theories/Proofs/FloatWholeFacts.v
theories/Proofs/FloatWholeEx.v
theories/Props/FloatWholeProps.v
