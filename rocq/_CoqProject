-Q theories Verif
theories/Base.v
theories/Frames.v
theories/CoMod.v
theories/Leaf.v
theories/Rnn.v
theories/Net.v
theories/Spec.v
theories/LeafSpec.v
theories/Ring.v
theories/LeafProof.v
theories/LeafMore.v
theories/LeafBig.v
theories/ZFrames.v
theories/NetSpec.v
theories/NetOk.v
theories/Calls.v
theories/NetProps.v
theories/NetDef.v
theories/NetCore.v
theories/NetFwd.v
theories/NetPad.v
theories/NetAcc.v
theories/NetAlg.v
theories/NetFun.v
theories/NetRes.v
theories/NetLen.v
theories/NetThm.v
theories/ZNets.v
theories/PNet1.v
theories/PNet2.v
theories/NetShift.v
theories/PTime.v
theories/Build.v
theories/BuildSpec.v
theories/BuildProof.v
theories/PBuild.v
theories/NetRel.v
theories/RelProof.v
theories/Batch.v
theories/BatchProof.v
theories/PBatch.v
theories/Tensor.v
theories/TConv.v
theories/TConvSpec.v
theories/TensorProof.v
theories/TConvProof.v
theories/TConvEntry.v
theories/PTensor.v
theories/TPool.v
theories/TPoolSpec.v
theories/TPoolProof.v
theories/TPoolEntry.v
theories/PTPool.v
theories/AdPool.v
theories/AdPoolSpec.v
theories/AdPoolProof.v
theories/AdEntry.v
theories/PAdPool.v
theories/PLeaf.v
theories/Point.v
theories/PointSpec.v
theories/PointProof.v
theories/PPoint.v
theories/Heap.v
theories/HeapSpec.v
theories/HeapProof.v
theories/HeapNet.v
theories/HeapThm.v
theories/PHeap.v
theories/Attn.v
theories/AttnSpec.v
theories/AttnProof.v
theories/AttnThm.v
theories/AttnMore.v
theories/ZAttn.v
theories/PAttn.v
theories/Trans.v
theories/TransSpec.v
theories/TransProof.v
theories/TransEnc.v
theories/PTrans.v
theories/TempParam.v
theories/TempProof.v
theories/CallMode.v
theories/CallSpec.v
theories/CallProof.v
theories/PCall.v
theories/StateDict.v
theories/StateDictSpec.v
theories/StateDictProof.v
theories/StateDictName.v
theories/PState.v
theories/Onnx.v
theories/OnnxSpec.v
theories/OnnxProof.v
theories/POnnx.v
theories/OnnxNet.v
theories/OnnxNetSpec.v
theories/OnnxNetProof.v
theories/POnnxNet.v
theories/Convert.v
theories/ConvertSpec.v
theories/ConvertProof.v
theories/PConvert.v
theories/Logging.v
theories/LoggingSpec.v
theories/LoggingProof.v
theories/PLog.v
theories/TAttn.v
theories/TAttnSpec.v
theories/TAttnProof.v
theories/PTAttn.v
theories/TRnn.v
theories/TRnnSpec.v
theories/TRnnProof.v
theories/TRnnLeaf.v
theories/PTRnn.v
theories/NetExn.v
theories/NetExnSpec.v
theories/NetExnProof.v
theories/PExn.v
theories/MemSpec.v
theories/MemProof.v
theories/AttnMemSpec.v
theories/AttnMem.v
theories/PMem.v
theories/TPoint.v
theories/TNet.v
theories/TNetSpec.v
theories/TPointSpec.v
theories/TPointProof.v
theories/TNetProof.v
theories/TNetLeaf.v
theories/TNetRnn.v
theories/TNetThm.v
theories/TPointThm.v
theories/PTPoint.v
theories/PTNet.v
theories/TBatch.v
theories/TBatchSpec.v
theories/TBatchProof.v
theories/PTBatch.v
theories/Share.v
theories/ShareSpec.v
theories/ShareProof.v
theories/PShare.v
theories/FloatSpec.v
theories/FloatProof.v
theories/FloatLeaf.v
theories/FloatAttn.v
theories/FloatExact.v
theories/Float32.v
theories/PFloat.v
theories/Hooks.v
theories/HooksSpec.v
theories/HooksProof.v
theories/HooksLog.v
theories/HooksPlug.v
theories/PHooks.v
theories/TEnc.v
theories/TEncSpec.v
theories/TEncProof.v
theories/TEncThm.v
theories/TEncNet.v
theories/TEncCalls.v
theories/TEncRun.v
theories/TEncMix.v
theories/TEncCtx.v
theories/PTEnc.v
theories/TBuild.v
theories/TBuildSpec.v
theories/TBuildProof.v
theories/TBuildThm.v
theories/PTBuild.v
theories/TPosSpec.v
theories/TPosProof.v
theories/PTPos.v
theories/TPeekSpec.v
theories/TPeekProof.v
theories/TPeekThm.v
theories/PTPeek.v
theories/Count.v
theories/CountSpec.v
theories/CountProof.v
theories/CountThm.v
theories/PCount.v
theories/Copy.v
theories/CopySpec.v
theories/CopyProof.v
theories/PCopy.v
theories/Mask.v
theories/MaskSpec.v
theories/MaskProof.v
theories/MaskThm.v
theories/PMask.v
theories/Reload.v
theories/ReloadSpec.v
theories/ReloadProof.v
theories/ReloadNet.v
theories/ReloadConv.v
theories/PReload.v
theories/Grad.v
theories/GradSpec.v
theories/GradProof.v
theories/GradDetach.v
theories/GradReal.v
theories/PGrad.v
theories/PGradReal.v
theories/GradAttn.v
theories/GradAttnSpec.v
theories/GradAttnProof.v
theories/PGradAttn.v
theories/Forget.v
theories/ForgetProof.v
theories/PForget.v
theories/Dropout.v
theories/DropoutProof.v
theories/PDropout.v
theories/DropNet.v
theories/DropNetProof.v
theories/PDropNet.v
theories/BatchNorm.v
theories/BatchNormProof.v
theories/PBatchNorm.v
theories/Axis.v
theories/AxisProof.v
theories/PAxis.v
theories/MhaBuild.v
theories/MhaBuildProof.v
theories/PMhaBuild.v
theories/Glu.v
theories/GluProof.v
theories/PGlu.v
