-Q theories Verif
theories/Base.v
theories/Value.v
theories/Schema.v
theories/Rewrite.v
theories/Sched.v
theories/Types.v
theories/Asdict.v
theories/FromDict.v
theories/AFacts.v
theories/SpecTree.v
theories/RewriteFacts.v
theories/PropsRewrite.v
theories/Induct.v
theories/SpecTypes.v
theories/FromDictFacts.v
theories/RoundTrip.v
theories/Examples.v
theories/ElideFacts.v
theories/ElideLoad.v
theories/DefaultFacts.v
theories/SpecLoad.v
theories/LoadFacts.v
theories/LoadSound.v
theories/OrderFacts.v
theories/OverrideSim.v
theories/SetOrder.v
theories/LoadProps.v
theories/SpecNum.v
theories/FloatFacts.v
theories/SpecOverride.v
theories/OverrideFacts.v
theories/OverrideLoad.v
theories/UpgradeFacts.v
theories/PropsSerde.v
theories/PropsLoad.v
theories/PropsNum.v
theories/SpecSched.v
theories/SchedFacts.v
theories/FloatOps.v
theories/FloatLerp.v
theories/PropsOverride.v
theories/PropsSched.v
theories/Manager.v
theories/SpecState.v
theories/ResumeFacts.v
theories/SchedTree.v
theories/ResumeProps.v
theories/SchedElide.v
theories/PropsState.v
theories/SpecKey.v
theories/KeyFacts.v
theories/PropsKey.v
theories/Ckpt.v
theories/SpecCkpt.v
theories/CkptFacts.v
theories/CrashFacts.v
theories/PropsCkpt.v
theories/Lazy.v
theories/Session.v
theories/Access.v
theories/SpecLazy.v
theories/LazyFacts.v
theories/SpecAgain.v
theories/SpecSession.v
theories/ConfigFacts.v
theories/AgainFacts.v
theories/SessionFacts.v
theories/AccessFacts.v
theories/PropsLazy.v
theories/Ctx.v
theories/SpecCtx.v
theories/CtxFacts.v
theories/PropsCtx.v
theories/SpecFirst.v
theories/FirstFacts.v
theories/PropsSession.v
theories/Checker.v
theories/SpecNames.v
theories/NamesFacts.v
theories/NamesFloat.v
theories/SpecRenames.v
theories/RenameFacts.v
theories/FindFacts.v
theories/SpecCheck.v
theories/CheckFacts.v
theories/PropsNames.v
theories/PropsChecker.v
theories/SchemaFacts.v
theories/SpecSubtype.v
theories/SubtypeFacts.v
theories/PropsSubtype.v
theories/SpecPlaced.v
theories/PlacedFacts.v
theories/UpgradeProps.v
theories/PropsUpgrade.v
theories/SpecCompat.v
theories/CompatFacts.v
theories/PropsCompat.v
theories/SpecFix.v
theories/FixFacts.v
theories/PropsFix.v
theories/SpecMirror.v
theories/MirrorFacts.v
theories/PropsMirror.v
theories/HelpM.v
theories/SpecHelp.v
theories/HelpFacts.v
theories/PropsHelp.v
theories/Command.v
theories/SpecCommand.v
theories/CommandFacts.v
theories/PropsCommand.v
theories/Msgpack.v
theories/SpecMsgpack.v
theories/MsgpackFacts.v
theories/PropsMsgpack.v
theories/SpecEvolve.v
theories/EvolveFacts.v
theories/PropsEvolve.v
theories/SpecReport.v
theories/ReportFacts.v
theories/PropsReport.v
theories/SpecDump.v
theories/DumpFacts.v
theories/PropsDump.v
theories/PropsAccess.v
theories/Docs.v
theories/SpecDocs.v
theories/DocsFacts.v
theories/PropsDocs.v
theories/Render.v
theories/SpecRender.v
theories/RenderFacts.v
theories/PropsRender.v
theories/SpecResolve.v
theories/ResolveFacts.v
theories/ResolveRules.v
theories/PropsResolve.v
theories/SpecBlob.v
theories/BlobFacts.v
theories/PropsBlob.v
theories/SpecHistory.v
theories/HistoryFacts.v
theories/PropsHistory.v
theories/SpecNest.v
theories/NestFacts.v
theories/NestRules.v
theories/NestLoad.v
theories/NestFix.v
theories/NestValues.v
theories/NestHistory.v
theories/PropsNest.v
theories/Run.v
theories/SpecRun.v
theories/RunFacts.v
theories/PropsRun.v
theories/Share.v
theories/SpecShare.v
theories/ShareFacts.v
theories/PropsShare.v
theories/Loop.v
theories/SpecLoop.v
theories/LoopFacts.v
theories/PropsLoop.v
theories/PropsFirst.v
