-Q theories Verif
theories/Base.v
theories/ModelStrconv.v
theories/ModelArray.v
theories/ModelUtf8.v
theories/ModelEncoding.v
theories/ModelPgutil.v
theories/SpecText.v
theories/SpecJson.v
theories/SpecPg.v
theories/LemmasBase.v
theories/LemmasArray.v
theories/LemmasArray2.v
theories/LemmasArray3.v
theories/LemmasUtf8.v
theories/LemmasJson.v
theories/LemmasEncoding.v
theories/LemmasPgutil.v
theories/LemmasJson2.v
theories/SpecSql.v
theories/SpecGo.v
theories/ModelCompiler.v
theories/ModelGen.v
theories/LemmasSql.v
theories/LemmasSql2.v
theories/LemmasSql3.v
theories/LemmasCompiler.v
theories/SpecGen.v
theories/LemmasGen.v
theories/LemmasGen2.v
theories/LemmasGen3.v
theories/LemmasSql4.v
theories/ModelRuntime.v
theories/SpecRuntime.v
theories/LemmasRuntime.v
theories/LemmasRuntime2.v
theories/LemmasRuntime3.v
theories/LemmasRuntime4.v
theories/LemmasRuntime5.v
theories/LemmasRuntime6.v
theories/LemmasRuntime7.v
theories/PropArray.v
theories/PropEncoding.v
theories/PropGen.v
theories/PropRuntime.v
theories/ModelStmt.v
theories/SpecStmt.v
theories/LemmasStmt.v
theories/LemmasStmt2.v
theories/LemmasStmt3.v
theories/LemmasStmt4.v
theories/LemmasStmt5.v
theories/PropStmt.v
theories/ModelPool.v
theories/SpecPool.v
theories/LemmasPool.v
theories/PropPool.v
theories/ModelPager.v
theories/SpecPager.v
theories/LemmasPager.v
theories/LemmasPager2.v
theories/LemmasPager3.v
theories/PropPager.v
theories/SpecDb.v
theories/SpecPaging.v
theories/LemmasPaging.v
theories/LemmasDb.v
theories/PropPaging.v
theories/SpecStore.v
theories/LemmasStore.v
theories/PropStore.v
theories/ModelRows.v
theories/SpecRows.v
theories/LemmasRows.v
theories/PropRows.v
theories/ModelParser.v
theories/SpecParser.v
theories/LemmasParser.v
theories/LemmasTag.v
theories/PropParser.v
theories/ModelNaming.v
theories/PropNaming.v
theories/ModelConfig.v
theories/PropConfig.v
theories/ModelPaths.v
theories/PropPaths.v
theories/ModelPointers.v
theories/PropPointers.v
theories/ModelMigration.v
theories/SpecMigration.v
theories/PropMigration.v
theories/ModelTypes.v
theories/PropTypes.v
theories/ModelResolve.v
theories/PropResolve.v
theories/ModelTime.v
theories/SpecTime.v
theories/LemmasTime.v
theories/PropTime.v
theories/ModelScan.v
theories/PropScan.v
theories/ModelJson.v
theories/SpecJsonValue.v
theories/LemmasJsonValue.v
theories/PropJson.v
theories/SpecIeee.v
theories/LemmasFloat.v
theories/ModelFloat.v
theories/SpecFloatColumn.v
theories/PropFloat.v
theories/ModelRun.v
theories/SpecRun.v
theories/LemmasRun.v
theories/PropRun.v
theories/ModelExpr.v
theories/SpecExpr.v
theories/LemmasExpr.v
theories/PropExpr.v
theories/SpecEnd.v
theories/PropEnd.v
theories/ModelMethods.v
theories/SpecMethods.v
theories/PropMethods.v
theories/SpecSafe.v
theories/PropSafe.v
theories/SpecSource.v
theories/ModelText.v
theories/LemmasSource.v
theories/SpecOutput.v
theories/LemmasOutput.v
theories/LemmasOutput2.v
theories/LemmasOutput3.v
theories/LemmasOutput4.v
theories/LemmasOutput5.v
theories/PropOutput.v
theories/ModelFile.v
theories/SpecFile.v
theories/PropFile.v
theories/ModelColumn.v
theories/SpecTyping.v
theories/LemmasTyping.v
theories/LemmasTyping2.v
theories/LemmasTyping3.v
theories/LemmasTyping4.v
theories/LemmasTyping5.v
theories/LemmasTyping6.v
theories/LemmasTyping7.v
theories/LemmasTyping8.v
theories/LemmasTyping9.v
theories/PropTyping.v
theories/SpecForm.v
theories/LemmasForm.v
theories/PropForm.v
theories/ModelScript.v
theories/SpecScript.v
theories/SpecScript2.v
theories/LemmasScript.v
theories/LemmasScript2.v
theories/LemmasScript3.v
theories/LemmasScript4.v
theories/LemmasScript5.v
theories/PropScript.v
theories/ModelCommand.v
theories/SpecCommand.v
theories/PropCommand.v
theories/ModelDataType.v
theories/SpecDataType.v
theories/LemmasDataType.v
theories/PropDataType.v
theories/SpecWhere.v
theories/PropWhere.v
theories/LemmasAnswers.v
theories/ModelCatalog.v
theories/SpecCatalog.v
theories/PropCatalog.v
theories/SpecRelations.v
theories/PropKeyName.v
theories/SpecConflict.v
theories/LemmasConflict.v
theories/PropConflict.v
theories/ModelQuery.v
theories/SpecQuery.v
theories/PropQuery.v
theories/ModelWrite.v
theories/SpecWrite.v
theories/PropWrite.v
theories/ModelHistory.v
theories/SpecHistory.v
theories/PropHistory.v
theories/ModelSlice.v
theories/SpecSlice.v
theories/LemmasSlice.v
theories/PropSlice.v
theories/ModelRace.v
theories/SpecRace.v
theories/LemmasRace.v
theories/PropRace.v
theories/ModelEmbed.v
theories/SpecEmbed.v
theories/LemmasEmbed.v
theories/PropEmbed.v
theories/ModelBatch.v
theories/SpecBatch.v
theories/LemmasBatch.v
theories/PropBatch.v
theories/ModelConcur.v
theories/SpecConcur.v
theories/LemmasConcur.v
theories/PropConcur.v
theories/ModelMoving.v
theories/SpecMoving.v
theories/LemmasMoving.v
theories/PropMoving.v
theories/ModelDisk.v
theories/SpecDisk.v
theories/LemmasDisk.v
theories/PropDisk.v
theories/ModelLock.v
theories/SpecLock.v
theories/PropLock.v
theories/PropPatterns.v
theories/PropKinds.v
theories/PropMapping.v
theories/PropBytea.v
theories/PropRefused.v
theories/ModelConn.v
theories/PropConn.v
theories/ModelConsumer.v
theories/SpecConsumer.v
theories/PropConsumer.v
theories/ModelShared.v
theories/SpecShared.v
theories/PropShared.v
theories/ModelMarshal.v
theories/SpecMarshal.v
theories/LemmasMarshal.v
theories/PropMarshal.v
theories/PropPrefix.v
theories/ModelMarshalTime.v
theories/SpecMarshalTime.v
theories/PropMarshalTime.v
theories/PropQuestion.v
theories/PropMarshalBack.v
theories/PropRelative.v
theories/PropDeep.v
theories/PropMarshalOrder.v
theories/PropMarshalClose.v
theories/PropStringColumn.v
theories/PropYes.v
