-Q theories Verif
theories/ProxyTypes.v
theories/AtomicCell.v
theories/TraceSpec.v
theories/AtomicCellFacts.v
theories/SyncProxyModel.v
theories/SyncProxyInv.v
theories/SyncProxySim.v
theories/SyncProxyProofs.v
theories/SyncProxyProps.v
theories/AsyncProxyModel.v
theories/AsyncProxyInv.v
theories/AsyncProxySim.v
theories/AsyncProxyProofs.v
theories/AsyncProxyProps.v
theories/ArgsModel.v
theories/CtxModel.v
theories/ArgsSpec.v
theories/ArgsFixtures.v
theories/ArgsProofs.v
theories/ArgsProps.v
theories/RustAst.v
theories/CommonGen.v
theories/PlainGen.v
theories/SyncGen.v
theories/RustTyping.v
theories/StructGen.v
theories/CodegenSpec.v
theories/CodegenProofs.v
theories/CodegenValues.v
theories/CodegenStruct.v
theories/CodegenProps.v
theories/RustSem.v
theories/FieldSpec.v
theories/FieldRun.v
theories/FieldProofs.v
theories/FieldSeq.v
theories/FieldStruct.v
theories/FieldProps.v
theories/BuilderSpec.v
theories/BuilderModel.v
theories/BuilderProofs.v
theories/BuilderFacts.v
theories/BuilderProps.v
theories/SerdeSpec.v
theories/SerdeModel.v
theories/SerdeProofs.v
theories/SerdeFacts.v
theories/SerdeProps.v
theories/TokenSpec.v
theories/TokenModel.v
theories/TokenProofs.v
theories/TokenProps.v
theories/GenericsSpec.v
theories/GenericsModel.v
theories/GenericsProofs.v
theories/GenericsProps.v
theories/MultiSpec.v
theories/MultiModel.v
theories/MultiOwn.v
theories/MultiOrder.v
theories/MultiTerm.v
theories/MultiTrap.v
theories/MultiProps.v
theories/GraphSpec.v
theories/GraphProofs.v
theories/PlainGraphModel.v
theories/PlainGraphProofs.v
theories/GraphProps.v
theories/RcSpec.v
theories/RcModel.v
theories/RcProofs.v
theories/RcProps.v
theories/ParseInput.v
theories/ParseSpec.v
theories/ParseModel.v
theories/ParseFacts.v
theories/ParseProofs.v
theories/ParseForms.v
theories/ParseRepeat.v
theories/ParseDefault.v
theories/ParseTop.v
theories/ParseProps.v
theories/TaskSpec.v
theories/TaskModel.v
theories/TaskOwn.v
theories/TaskOrder.v
theories/TaskTerm.v
theories/TaskTrap.v
theories/TaskGraph.v
theories/TaskClean.v
theories/TaskProps.v
theories/StorySpec.v
theories/TaskStory.v
theories/TaskField.v
theories/StoryFacts.v
theories/StoryProps.v
theories/MultiStory.v
theories/MultiField.v
theories/SyncStoryProps.v
theories/RegisterSpec.v
theories/RegisterFacts.v
theories/MultiRegister.v
theories/MultiCompare.v
theories/LockProps.v
theories/TaskRegister.v
theories/TaskCompare.v
theories/AsyncLockProps.v
theories/AttrModel.v
theories/AttrSpec.v
theories/AttrProofs.v
theories/AttrProps.v
theories/CopyModel.v
theories/CopyProofs.v
theories/CopyProps.v
theories/NameModel.v
theories/MacroModel.v
theories/MacroSpec.v
theories/NameProofs.v
theories/MacroProofs.v
theories/MacroProps.v
theories/GrammarSpec.v
theories/GrammarProofs.v
theories/GrammarProps.v
theories/WeakMem.v
theories/WeakSpec.v
theories/WeakMemFacts.v
theories/WeakSyncModel.v
theories/WeakSyncProofs.v
theories/WeakFresh.v
theories/WeakSyncProps.v
theories/WeakAsyncModel.v
theories/WeakAsyncProofs.v
theories/WeakAsyncProps.v
theories/WeakOrder.v
theories/WeakSyncOrder.v
theories/WeakAsyncOrder.v
theories/WrittenSpec.v
theories/WrittenProofs.v
theories/WrittenNames.v
theories/WrittenProps.v
theories/AutoSpec.v
theories/AutoModel.v
theories/AutoProofs.v
theories/AutoProps.v
theories/SignSpec.v
theories/SignProofs.v
theories/SignMethods.v
theories/SignTypes.v
theories/SignProps.v
theories/MadeModel.v
theories/MadeSpec.v
theories/MadeProofs.v
theories/MadeSerde.v
theories/MadeProps.v
theories/BehaveSpec.v
theories/BehaveModel.v
theories/BehaveProofs.v
theories/BehaveProps.v
theories/DocSpec.v
theories/DocProofs.v
theories/DocProps.v
theories/GuardCell.v
theories/GuardFacts.v
theories/SyncGuards.v
theories/AsyncGuards.v
theories/SyncAlone.v
theories/AsyncAlone.v
theories/GuardProps.v
theories/ThreadSpec.v
theories/ThreadModel.v
theories/ThreadScripts.v
theories/ThreadSim.v
theories/ThreadRun.v
theories/ThreadProofs.v
theories/ThreadWords.v
theories/ThreadProps.v
theories/LockedModel.v
theories/LockedScripts.v
theories/LockedSim.v
theories/LockedProofs.v
theories/LockedWords.v
theories/LockedProps.v
theories/ItemModel.v
theories/ItemSpec.v
theories/ItemProofs.v
theories/ItemProps.v
theories/ObjectSpec.v
theories/ObjectModel.v
theories/ObjectProofs.v
theories/ObjectParts.v
theories/ObjectRecord.v
theories/ObjectWords.v
theories/ObjectProps.v
theories/HygieneSpec.v
theories/HygieneModel.v
theories/HygieneWhen.v
theories/HygieneProofs.v
theories/HygieneField.v
theories/HygieneStruct.v
theories/HygieneConverse.v
theories/HygieneMain.v
theories/HygieneProps.v
theories/WeakObjectModel.v
theories/WeakObjectSpec.v
theories/WeakSyncCan.v
theories/WeakAsyncCan.v
theories/WeakObjectThreads.v
theories/WeakObjectLock.v
theories/WeakObjectParts.v
theories/WeakObjectProofs.v
theories/WeakObjectWords.v
theories/WeakObjectFresh.v
theories/WeakObjectProps.v
theories/EndSpec.v
theories/EndProofs.v
theories/EndObject.v
theories/EndWeak.v
theories/EndProps.v
theories/LifeSpec.v
theories/LifeModel.v
theories/LifeProofs.v
theories/LifeRecord.v
theories/LifeWords.v
theories/LifeProps.v
theories/WeakLifeSpec.v
theories/WeakLifeModel.v
theories/WeakLifeProofs.v
theories/WeakLifeRecord.v
theories/WeakLifeWords.v
theories/WeakLifeProps.v
theories/FxhSpec.v
theories/FxhModel.v
theories/FxhProofs.v
theories/FxhProps.v
theories/SessionSpec.v
theories/SessionModel.v
theories/SessionProofs.v
theories/SessionProps.v
theories/DupSpec.v
theories/DupModel.v
theories/DupProofs.v
theories/DupProps.v
