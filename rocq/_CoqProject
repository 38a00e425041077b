-Q theories Verif
theories/HistModel.v
theories/HistSpec.v
theories/HistTreeProofs.v
theories/HistProofs.v
theories/HistNavProofs.v
theories/HistMoreProofs.v
theories/HistExamples.v
theories/TreeModel.v
theories/TreeProofs.v
theories/PropertiesHist.v
theories/AppModel.v
theories/AppSpec.v
theories/AppProofs.v
theories/PropertiesApp.v
theories/IntervalModel.v
theories/IntervalSpec.v
theories/IntervalProofs.v
theories/IntervalSolveProofs.v
theories/IntervalMeshProofs.v
theories/IntervalMoreProofs.v
theories/PropertiesInterval.v
theories/ManagerModel.v
theories/ManagerSpec.v
theories/ManagerProofs.v
theories/ManagerMeshProofs.v
theories/ManagerMoreProofs.v
theories/ManagerCounterProofs.v
theories/ManagerSafetyProofs.v
theories/PropertiesManager.v
theories/GeomModel.v
theories/GeomSpec.v
theories/GeomProofs.v
theories/GeomSegProofs.v
theories/GeomBoxProofs.v
theories/GeomLocateProofs.v
theories/PropertiesGeom.v
theories/BoardModel.v
theories/BoardSpec.v
theories/BoardProofs.v
theories/BoardColinearProofs.v
theories/BoardSolveProofs.v
theories/BoardCoverProofs.v
theories/BoardDetectProofs.v
theories/BoardBuiltProofs.v
theories/BoardAdjustProofs.v
theories/BoardIndividualProofs.v
theories/BoardRunProofs.v
theories/BoardClassProofs.v
theories/BoardDiagProofs.v
theories/BoardLinesProofs.v
theories/BoardExamples.v
theories/PropertiesBoard.v
theories/PropertiesCover.v
theories/PropertiesRun.v
theories/BoardZonedProofs.v
theories/PropertiesDiag.v
theories/PropertiesLines.v
theories/EndSpec.v
theories/BoardSafetyProofs.v
theories/BoardEndProofs.v
theories/PropertiesEnd.v
theories/InfraModel.v
theories/InfraSpec.v
theories/InfraNumberProofs.v
theories/InfraProofs.v
theories/InfraFileProofs.v
theories/InfraWriteProofs.v
theories/PropertiesInfra.v
theories/NumberSpec.v
theories/NumberProofs.v
theories/PropertiesNumbers.v
theories/FileRunProofs.v
theories/PropertiesFiles.v
theories/VisibleSpec.v
theories/GridProofs.v
theories/BoardVisibleProofs.v
theories/VisibleRunProofs.v
theories/PropertiesVisible.v
theories/RoundModel.v
theories/RoundSpec.v
theories/RoundProofs.v
theories/RoundLinesProofs.v
theories/RoundSolveProofs.v
theories/RoundMeshProofs.v
theories/RoundCellProofs.v
theories/RoundAxisProofs.v
theories/RoundRunProofs.v
theories/RoundDetectProofs.v
theories/RoundCounterProofs.v
theories/RoundShareProofs.v
theories/RoundDoubleProofs.v
theories/PropertiesRound.v
theories/LocateSpec.v
theories/LocateProofs.v
theories/LocateRayProofs.v
theories/PropertiesLocate.v
theories/ShapeSpec.v
theories/ShapeVisibleProofs.v
theories/ShapeRunProofs.v
theories/PropertiesShape.v
theories/GuiModel.v
theories/GuiSpec.v
theories/GuiHistProofs.v
theories/GuiProofs.v
theories/GuiExamples.v
theories/PropertiesGui.v
theories/EditModel.v
theories/EditSpec.v
theories/EditProofs.v
theories/EditGlobalProofs.v
theories/EditBackProofs.v
theories/EditStayProofs.v
theories/EditZoneProofs.v
theories/EditRestartProofs.v
theories/PropertiesEdit.v
theories/SceneModel.v
theories/SceneSpec.v
theories/SceneProofs.v
theories/SceneWalkProofs.v
theories/SceneValidProofs.v
theories/SceneSessionProofs.v
theories/SceneOnceProofs.v
theories/SceneColumnProofs.v
theories/SceneThingProofs.v
theories/SelectModel.v
theories/SelectSpec.v
theories/SelectProofs.v
theories/SelectShownProofs.v
theories/PropertiesScene.v
theories/PropertiesSelect.v
theories/OrderSpec.v
theories/OrderValueProofs.v
theories/OrderProofs.v
theories/OrderMeshProofs.v
theories/PropertiesOrder.v
theories/LoggerModel.v
theories/LoggerSpec.v
theories/LoggerProofs.v
theories/PropertiesLogger.v
theories/ShiftSpec.v
theories/ShiftProofs.v
theories/ShiftGeomProofs.v
theories/ShiftBoardProofs.v
theories/PropertiesShift.v
theories/PlantumlModel.v
theories/PlantumlSpec.v
theories/PlantumlProofs.v
theories/PlantumlStateProofs.v
theories/PlantumlValidProofs.v
theories/PlantumlArrowProofs.v
theories/PlantumlTextProofs.v
theories/PlantumlSaysProofs.v
theories/PropertiesPlantuml.v
theories/StructureModel.v
theories/StructureSpec.v
theories/StructureValidProofs.v
theories/StructureProofs.v
theories/PropertiesStructure.v
theories/DisplayModel.v
theories/DisplaySpec.v
theories/DisplayProofs.v
theories/PropertiesDisplay.v
theories/SyncModel.v
theories/SyncSpec.v
theories/SyncProofs.v
theories/PropertiesSync.v
theories/DelegateModel.v
theories/DelegateSpec.v
theories/PropertiesDelegate.v
theories/CircleModel.v
theories/CircleSpec.v
theories/CircleProofs.v
theories/PropertiesCircle.v
theories/LayoutModel.v
theories/LayoutSpec.v
theories/LayoutProofs.v
theories/PropertiesLayout.v
theories/ProgressModel.v
theories/ProgressSpec.v
theories/ProgressProofs.v
theories/PropertiesProgress.v
theories/PrettyModel.v
theories/PrettySpec.v
theories/PrettyProofs.v
theories/PropertiesPretty.v
theories/RoundCloseModel.v
theories/RoundCloseSpec.v
theories/RoundCloseProofs.v
theories/PropertiesRoundClose.v
theories/UnseqModel.v
theories/UnseqSpec.v
theories/UnseqProofs.v
theories/PropertiesUnseq.v
theories/AutoSpec.v
theories/AutoProofs.v
theories/PropertiesAuto.v
