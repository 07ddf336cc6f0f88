-Q theories Verif
theories/Base.v
theories/BaseProofs.v
theories/AttrDictModel.v
theories/AttrDictSpec.v
theories/AttrDictProofs.v
theories/AttrDictUnion.v
theories/AttrDictMore.v
theories/AttrDictLayers.v
theories/AttrDictProps.v
theories/DefModel.v
theories/DefSpec.v
theories/DefScenario.v
theories/DefCombine.v
theories/DefPriority.v
theories/DefTemplate.v
theories/DefImports.v
theories/DefCheck.v
theories/DefTotal.v
theories/DefSources.v
theories/DefProps.v
theories/MathModel.v
theories/MathSpec.v
theories/MathProofs.v
theories/MathProps.v
theories/ConfigModel.v
theories/ConfigSpec.v
theories/ConfigProofs.v
theories/ConfigUpdate.v
theories/ConfigProps.v
theories/SerialModel.v
theories/SerialSpec.v
theories/SerialProofs.v
theories/SerialBack.v
theories/SerialMore.v
theories/SerialProps.v
theories/OperateModel.v
theories/OperateSpec.v
theories/OperateProofs.v
theories/OperateProps.v
theories/SporesModel.v
theories/SporesSpec.v
theories/SporesProofs.v
theories/SporesMore.v
theories/SporesScore.v
theories/SporesResume.v
theories/SporesProps.v
theories/LifeModel.v
theories/LifeSpec.v
theories/LifeProofs.v
theories/LifeProps.v
theories/TimeModel.v
theories/TimeSpec.v
theories/TimeProofs.v
theories/TimeProps.v
theories/AgainModel.v
theories/AgainSpec.v
theories/AgainProofs.v
theories/AgainProps.v
theories/CurveModel.v
theories/CurveSpec.v
theories/CurveProofs.v
theories/CurveProps.v
theories/KindModel.v
theories/KindSpec.v
theories/KindProofs.v
theories/KindProps.v
theories/DualModel.v
theories/DualSpec.v
theories/DualProps.v
theories/NodeModel.v
theories/NodeSpec.v
theories/NodeProofs.v
theories/NodeLinks.v
theories/NodeProps.v
theories/DataModel.v
theories/DataSpec.v
theories/DataProofs.v
theories/DataMore.v
theories/DataProps.v
theories/CliModel.v
theories/CliSpec.v
theories/CliNumbers.v
theories/CliProofs.v
theories/CliProps.v
theories/LangModel.v
theories/MathText.v
theories/LangSpec.v
theories/LangProofs.v
theories/LangWhere.v
theories/LangShow.v
theories/LangProps.v
theories/EvalModel.v
theories/EvalSpec.v
theories/EvalProofs.v
theories/EvalNumber.v
theories/EvalFormula.v
theories/EvalCond.v
theories/EvalProps.v
theories/BuildModel.v
theories/BuildSpec.v
theories/BuildProofs.v
theories/BuildExpand.v
theories/BuildEqs.v
theories/BuildMove.v
theories/BuildProps.v
theories/HelperModel.v
theories/HelperSpec.v
theories/HelperProofs.v
theories/HelperLocal.v
theories/HelperLaws.v
theories/HelperMore.v
theories/HelperProps.v
theories/HelperDefined.v
theories/UpdateModel.v
theories/UpdateSpec.v
theories/UpdateProofs.v
theories/UpdateFresh.v
theories/UpdateRebuild.v
theories/UpdateStep.v
theories/UpdateSeq.v
theories/UpdateProps.v
theories/SolverModel.v
theories/SolverSpec.v
theories/SolverProofs.v
theories/SolverVars.v
theories/SolverProps.v
theories/ShipModel.v
theories/ShipSpec.v
theories/ShipExample.v
theories/ShipProofs.v
theories/ShipExcl.v
theories/ShipBuildProps.v
theories/ShipEntry.v
theories/ShipStorage.v
theories/ShipStorageProps.v
theories/ShipNumbers.v
theories/NetSpec.v
theories/NetProofs.v
theories/NetExample.v
theories/NetProps.v
theories/PlaceSpec.v
theories/ShipPlace.v
theories/RuleText.v
theories/BoundModel.v
theories/BoundSpec.v
theories/RuleProofs.v
theories/StepText.v
theories/MilpProofs.v
theories/ShipFast.v
theories/BoundFast.v
theories/RuleExample.v
theories/RuleProps.v
theories/MilpExample.v
theories/MilpProps.v
theories/CostSpec.v
theories/CostText.v
theories/CostProofs.v
theories/CostTotals.v
theories/CostYear.v
theories/CostGoal.v
theories/CostObj.v
theories/CostPost.v
theories/CostAny.v
theories/CostExample.v
theories/StepSpec.v
theories/StepProofs.v
theories/StepExample.v
theories/StepProps.v
theories/CostProps.v
theories/PostProps.v
theories/RestSpec.v
theories/RestProofs.v
theories/RestExample.v
theories/RestProps.v
theories/BoundProofs.v
theories/BoundExample.v
theories/BoundProps.v
theories/AltProps.v
theories/TableModel.v
theories/TableSpec.v
theories/TableProofs.v
theories/TableProps.v
theories/InputModel.v
theories/InputSpec.v
theories/InputProofs.v
theories/InputShared.v
theories/InputTop.v
theories/InputProps.v
theories/CheckModel.v
theories/CheckProps.v
theories/DocModel.v
theories/DocSpec.v
theories/DocProofs.v
theories/DocProps.v
theories/FinalModel.v
theories/FinalProps.v
theories/GuardModel.v
theories/GuardSpec.v
theories/GuardText.v
theories/GuardProofs.v
theories/GuardProps.v
theories/LinkSpec.v
theories/LinkText.v
theories/LinkProofs.v
theories/LinkExample.v
theories/LinkProps.v
theories/DaySpec.v
theories/DayProofs.v
theories/DayExample.v
theories/DayProps.v
theories/PrepSpec.v
theories/PrepProofs.v
theories/PrepExample.v
theories/PrepProps.v
theories/CsvModel.v
theories/CsvSpec.v
theories/CsvProps.v
theories/RunSpec.v
theories/RunProps.v
theories/SporesTerm.v
theories/TightProps.v
theories/TightMore.v
theories/TightKeys.v
theories/TightConf.v
theories/TightNodes.v
theories/TightUpdate.v
theories/TightGuard.v
theories/LogModel.v
theories/LogProps.v
