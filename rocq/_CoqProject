-Q theories Verif
theories/GoBase.v
theories/GoFacts.v
theories/SpecWhite.v
theories/WhiteFacts.v
theories/Predicates.v
theories/FlatRecord.v
theories/SpecStrings.v
theories/PolicyFacts.v
theories/FieldTables.v
theories/SpecContext.v
theories/Samples.v
theories/PolicyFacts2.v
theories/Props_Policy.v
theories/FalcoModel.v
theories/SpecFalco.v
theories/FalcoFacts.v
theories/FalcoFacts2.v
theories/SpecFlat.v
theories/FalcoFacts3.v
theories/Props_Falco.v
theories/SigmaModel.v
theories/SpecSigma.v
theories/SigmaFacts.v
theories/Props_Sigma.v
theories/EngineModel.v
theories/SpecEngine.v
theories/EngineFacts.v
theories/EngineFlat.v
theories/SpecEngineFlat.v
theories/EngineFacts2.v
theories/Props_Engine.v
theories/PermTac.v
theories/PoolModel.v
theories/SpecPool.v
theories/PoolFacts.v
theories/PoolFacts2.v
theories/PoolFacts3.v
theories/PoolFacts4.v
theories/Props_Pool.v
theories/MonitorModel.v
theories/SpecMonitor.v
theories/MonitorFacts.v
theories/Props_Monitor.v
theories/PluginModel.v
theories/SpecPlugin.v
theories/PluginFacts.v
theories/Props_Plugin.v
theories/NetModel.v
theories/SpecNet.v
theories/NetFacts.v
theories/NetFacts2.v
theories/NetFacts3.v
theories/Props_Net.v
theories/OtelModel.v
theories/SpecOtel.v
theories/OtelFacts.v
theories/Props_Otel.v
theories/ReaderModel.v
theories/SpecReader.v
theories/ReaderFacts.v
theories/ReaderFacts2.v
theories/ReaderFacts3.v
theories/Props_Reader.v
theories/FlattenModel.v
theories/SpecFlatten.v
theories/FlattenFacts.v
theories/FlattenFacts2.v
theories/Props_Flatten.v
theories/ExportModel.v
theories/SpecExport.v
theories/ExportFacts.v
theories/ExportFacts2.v
theories/Props_Export.v
theories/JsonModel.v
theories/SpecJson.v
theories/JsonFacts.v
theories/JsonFacts2.v
theories/JsonFacts3.v
theories/JsonFacts4.v
theories/JsonFacts5.v
theories/JsonFacts6.v
theories/JsonFacts7.v
theories/Props_Json.v
theories/JsonFlat.v
theories/Props_JsonFlat.v
theories/EcsModel.v
theories/SpecEcs.v
theories/EcsFacts.v
theories/EcsFacts2.v
theories/EcsFacts3.v
theories/Props_Ecs.v
theories/DriverModel.v
theories/SpecDriver.v
theories/DriverFacts.v
theories/Props_Driver.v
theories/GrammarModel.v
theories/GrammarParser.v
theories/GrammarFacts.v
theories/SpecGrammar.v
theories/GrammarFacts2.v
theories/GrammarFacts3.v
theories/LexerModel.v
theories/LexerFacts.v
theories/SpecLexer.v
theories/LexerFacts2.v
theories/LexerFacts3.v
theories/LexerFacts4.v
theories/LexerFacts5.v
theories/GrammarFacts4.v
theories/GrammarFacts5.v
theories/GrammarFacts6.v
theories/TextFacts.v
theories/LexFast.v
theories/Props_Grammar.v
theories/InitModel.v
theories/SpecInit.v
theories/InitFacts.v
theories/LiveFacts.v
theories/Props_Init.v
theories/AppModel.v
theories/SpecApp.v
theories/AppFacts.v
theories/Props_App.v
theories/StartModel.v
theories/SpecStart.v
theories/StartFacts.v
theories/Props_Start.v
theories/ChainModel.v
theories/SpecChain.v
theories/ChainFacts.v
theories/Props_Chain.v
theories/Props_SigmaLive.v
theories/OtelEngine.v
theories/SpecOtelEngine.v
theories/OtelEngineFacts.v
theories/Props_OtelEngine.v
theories/RaceModel.v
theories/SpecRace.v
theories/RaceFacts.v
theories/Props_Race.v
theories/RecoverModel.v
theories/SpecRecover.v
theories/RecoverFacts.v
theories/Props_Recover.v
theories/ElasticModel.v
theories/SpecElastic.v
theories/ElasticFacts.v
theories/Props_Elastic.v
theories/SpecRest.v
theories/RestFacts.v
theories/ChainRest.v
theories/Props_Rest.v
theories/ManifestModel.v
theories/SpecManifest.v
theories/Props_Manifest.v
theories/SpecWrite.v
theories/WriteFacts.v
theories/Props_Write.v
theories/OtelPipe.v
theories/SpecOtelPipe.v
theories/OtelPipeFacts.v
theories/Props_OtelPipe.v
theories/SpecEdit.v
theories/EditFacts.v
theories/Props_Edit.v
theories/WatchModel.v
theories/SpecWatch.v
theories/WatchFacts.v
theories/Props_Watch.v
theories/CrashModel.v
theories/SpecCrash.v
theories/CrashFacts.v
theories/Props_Crash.v
theories/RerunModel.v
theories/RerunFacts.v
theories/Props_Rerun.v
theories/KafkaModel.v
theories/KafkaFacts.v
theories/Props_Kafka.v
theories/SpecBound.v
theories/BoundFacts.v
theories/Props_Bound.v
theories/EcsText.v
theories/SpecEcsText.v
theories/EcsTextFacts.v
theories/Props_EcsText.v
theories/TimeModel.v
theories/SpecTime.v
theories/TimeFacts.v
theories/TimeFacts2.v
theories/Props_Time.v
theories/ExampleModel.v
theories/SpecExample.v
theories/Props_Example.v
theories/HealthModel.v
theories/SpecHealth.v
theories/Props_Health.v
theories/SpecSigmaEdit.v
theories/SigmaEditFacts.v
theories/Props_SigmaEdit.v
theories/SignalModel.v
theories/SpecSignal.v
theories/SignalFacts.v
theories/Props_Signal.v
theories/SpecTune.v
theories/TuneFacts.v
theories/Props_Tune.v
theories/SpecWords.v
theories/WordFacts.v
theories/Props_Words.v
theories/SpecLine.v
theories/LineFacts.v
theories/Props_Line.v
theories/GlobModel.v
theories/SpecGlob.v
theories/GlobFacts.v
theories/Props_Glob.v
theories/SpecOtelEdit.v
theories/OtelEditFacts.v
theories/Props_OtelEdit.v
theories/TargetFacts.v
theories/Props_Targets.v
theories/EvalModel.v
theories/SpecEval.v
theories/EvalFacts.v
theories/OperandFacts.v
theories/Props_Eval.v
theories/EvalOtel.v
theories/SpecEvalOtel.v
theories/EvalOtelFacts.v
theories/EvalOtelFacts2.v
theories/EvalOtelFacts3.v
theories/EvalOtelFacts4.v
theories/Props_EvalOtel.v
theories/StopModel.v
theories/SpecStop.v
theories/StopFacts.v
theories/Props_Stop.v
theories/ShareModel.v
theories/SpecShare.v
theories/ShareFacts.v
theories/Props_Share.v
