-Q theories Verif
theories/Spec.v
theories/TreeSpec.v
theories/FloodAbs.v
theories/FloodAbsInv.v
theories/FloodAbsProof.v
theories/Grid.v
theories/FloodModel.v
theories/WordBits.v
theories/FloodRefine.v
theories/FloodInit.v
theories/FloodTree.v
theories/FloodCorrect.v
theories/FloodExamples.v
theories/TreeFacts.v
theories/JoinMath.v
theories/ConnectModel.v
theories/ConnectProof.v
theories/PartModel.v
theories/PartProof.v
theories/MergeProof.v
theories/WholeModel.v
theories/WholeProof.v
theories/WholeCorrect.v
theories/JoinCorrect.v
theories/JoinExamples.v
theories/PropFlood.v
theories/PropJoin.v
theories/FloatModel.v
theories/FloatFacts.v
theories/RecogModel.v
theories/RecogSpec.v
theories/RecogStatic.v
theories/RecogWorkers.v
theories/RecogSched.v
theories/RecogNms.v
theories/RecogSerial.v
theories/RecogOrder.v
theories/DupAbs.v
theories/RecogDup.v
theories/GrowthFacts.v
theories/RecogTree.v
theories/RecogCompose.v
theories/RecogFinal.v
theories/DupTrans.v
theories/RecogTransport.v
theories/RecogResults.v
theories/RecogPixels.v
theories/DetectModel.v
theories/Detect.v
theories/RecogExamples.v
theories/PropRecog.v
theories/RectModel.v
theories/ExtractModel.v
theories/ExtractAbs.v
theories/ExtractLink.v
theories/RectFacts.v
theories/ExtractMem.v
theories/ExtractFinish.v
theories/ExtractDecode.v
theories/ExtractCorrect.v
theories/ExtractTree.v
theories/ExtractTop.v
theories/RunModel.v
theories/RunCorrect.v
theories/RunResults.v
theories/RunExamples.v
theories/PropExtract.v
theories/UtilModel.v
theories/UtilSort.v
theories/UtilFacts.v
theories/UtilDyn.v
theories/PropUtil.v
theories/BlockModel.v
theories/BlockFacts.v
theories/PropBlock.v
theories/CopyModel.v
theories/CopyFacts.v
theories/PropCopy.v
theories/LinkedModel.v
theories/LinkedHeap.v
theories/LinkedLists.v
theories/LinkedRefine.v
theories/LinkedGrid.v
theories/LinkedInit.v
theories/LinkedCorrect.v
theories/LinkedExamples.v
theories/PropLinked.v
theories/CvModel.v
theories/CvRecog.v
theories/CvExtract.v
theories/CvCorrect.v
theories/CvResults.v
theories/CvExamples.v
theories/PropCv.v
theories/OcvModel.v
theories/OcvWords.v
theories/OcvHeap.v
theories/OcvTree.v
theories/OcvComp.v
theories/OcvStack.v
theories/OcvRefine.v
theories/OcvRun.v
theories/OcvInit.v
theories/OcvCorrect.v
theories/OcvExamples.v
theories/PropOcv.v
theories/V1JoinModel.v
theories/V1Heap.v
theories/V1Lists.v
theories/V1Cut.v
theories/V1Connect.v
theories/V1Loop.v
theories/V1Conn.v
theories/V1Model.v
theories/V1FloodLists.v
theories/V1FloodRefine.v
theories/V1FloodInit.v
theories/V1FloodCorrect.v
theories/V1BuildModel.v
theories/V1Sort.v
theories/V1Union.v
theories/V1Seams.v
theories/V1Whole.v
theories/V1Build.v
theories/V1AllocModel.v
theories/V1Alloc.v
theories/V1Comp.v
theories/V1Examples.v
theories/V1RecogModel.v
theories/V1Recog.v
theories/V1Detect.v
theories/V1RecogExamples.v
theories/V1ExtractModel.v
theories/V1Copy.v
theories/V1Tops.v
theories/V1Extract.v
theories/V1ExtractExamples.v
theories/PropV1.v
theories/PropV1Recog.v
theories/PropV1Extract.v
theories/DrawModel.v
theories/Draw.v
theories/DrawExamples.v
theories/ResultModel.v
theories/ResultFacts.v
theories/CcModel.v
theories/CcFacts.v
theories/PropDraw.v
theories/MsModel.v
theories/MsRecog.v
theories/MsLink.v
theories/MsMem.v
theories/MsExtract.v
theories/MsTop.v
theories/MsResults.v
theories/MsExamples.v
theories/PropMs.v
theories/OrgModel.v
theories/OrgBuild.v
theories/OrgTree.v
theories/OrgPad.v
theories/OrgPass.v
theories/OrgLink.v
theories/OrgRecog.v
theories/OrgDup.v
theories/OrgFinal.v
theories/OrgExtract.v
theories/OrgResults.v
theories/OrgExamples.v
theories/PropOrg.v
theories/Oc2Model.v
theories/Oc2Spec.v
theories/Oc2Examples.v
theories/Oc2Hist.v
theories/Oc2Comp.v
theories/Oc2Join.v
theories/Oc2Seg.v
theories/Oc2Share.v
theories/Oc2Refine.v
theories/Oc2Correct.v
theories/Oc2Results.v
theories/Oc2Same.v
theories/PropOc2.v
