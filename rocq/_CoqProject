-Q theories Verif
theories/Base.v
theories/Floats.v
theories/Simd.v
theories/Dtypes.v
theories/QuantKernels.v
theories/ExecFacts.v
theories/Spec.v
theories/ApiSpec.v
theories/FloatFacts.v
theories/QuantFacts.v
theories/QuantKernelFacts.v
theories/LoopFacts.v
theories/QuantGenericFacts.v
theories/DequantKernels.v
theories/DequantFacts.v
theories/DequantGenericFacts.v
theories/QuantLanes.v
theories/Context.v
theories/Contract.v
theories/ContextFacts.v
theories/Footprint.v
theories/QuantizeFacts.v
theories/DequantizeFacts.v
theories/Api.v
theories/ContractFacts.v
theories/PropsQuantize.v
theories/Schedule.v
theories/PropsMemory.v
theories/FloatFacts2.v
theories/PropsDequantize.v
theories/PropsRoundTrip.v
theories/Bf16Spec.v
theories/Bf16Facts.v
theories/PropsLoops.v
theories/FloatFacts3.v
theories/PathSpec.v
theories/PropsPaths.v
theories/NoAbort.v
theories/PropsDispatch.v
theories/ScalarUB.v
theories/PropsExtreme.v
theories/PropsZeroPoint.v
theories/RoundTripFacts.v
theories/PropsIdempotent.v
theories/PropsStochastic.v
theories/MinMax.v
theories/MinMaxFacts.v
theories/ConfigSpec.v
theories/F64Facts.v
theories/ConfigFacts.v
theories/PropsConfig.v
theories/MinMaxAny.v
theories/PropsConfigAny.v
theories/PropsScanLoops.v
theories/PropsRepresent.v
theories/PropsConfigRefuted.v
theories/Capi.v
theories/PropsCapi.v
theories/PropsCapiEnums.v
theories/CpuDetect.v
theories/PropsCpu.v
theories/Link.v
theories/PropsLink.v
theories/PropsBf16.v
theories/PropsBf16Ops.v
theories/Python.v
theories/PropsPython.v
theories/PropsDequantBf16.v
theories/PropsPython2.v
theories/DequantUB.v
theories/PropsDequantAny.v
theories/PropsContract.v
theories/PropsBf16Zero.v
theories/PropsChunks.v
theories/PropsOrder.v
theories/PropsDtypes.v
theories/PropsBadScale.v
theories/PropsRoundTripTypes.v
theories/AnyInputSpec.v
theories/PropsAnyInput.v
theories/PropsAnyThreads.v
theories/Typed.v
theories/PropsTyped.v
theories/Arena.v
theories/ArenaFacts.v
theories/PropsArena.v
theories/Rng.v
theories/PropsRng.v
theories/PropsVariance.v
theories/Mt19937.v
theories/PropsMt.v
theories/PropsMtStd.v
theories/WeakMem.v
theories/WeakFacts.v
theories/PropsWeak.v
theories/PropsReadme.v
theories/Naive.v
theories/PropsNaive.v
theories/PropsConstant.v
theories/PropsAccumulate.v
theories/PropsFusedAny.v
theories/PropsSpike.v
theories/PropsChunksAny.v
theories/PropsTests.v
theories/PropsAccumulate16.v
theories/PropsPython3.v
theories/PyViews.v
theories/PropsViews.v
theories/PropsViews2.v
theories/PropsInPlace.v
theories/PropsAlign.v
theories/PyLifetime.v
theories/PropsLifetime.v
theories/PropsStable.v
theories/PropsStable16.v
theories/PropsUnits.v
theories/Flush.v
theories/FlushFacts.v
theories/FlushFacts2.v
theories/FlushFacts3.v
theories/FlushScan.v
theories/FlushConfig.v
theories/PropsFlush.v
theories/Diag.v
theories/PropsDiag.v
theories/PropsOptimal.v
theories/PropsReplicas.v
theories/PropsRankOrder.v
theories/PropsAggregate.v
theories/PropsRing.v
theories/PropsTranscode.v
theories/PropsClip.v
theories/PropsBlocks.v
theories/PropsIntDot.v
theories/PropsFeedback.v
theories/PropsAccumOrder.v
theories/PropsUnitsBf16.v
theories/PropsIndependent.v
theories/PropsStochasticReduce.v
theories/PropsStochasticRing.v
theories/PropsStochasticTail.v
theories/PropsStochasticReceivedTail.v
theories/Witnesses.v
theories/Witnesses2.v
theories/Witnesses3.v
theories/Witnesses4.v
theories/Witnesses5.v
theories/Witnesses6.v
theories/Witnesses7.v
theories/Witnesses8.v
theories/Witnesses9.v
theories/Witnesses10.v
theories/Witnesses11.v
theories/Witnesses12.v
theories/Witnesses13.v
theories/Witnesses14.v
theories/Witnesses15.v
theories/Witnesses16.v
theories/Witnesses17.v
theories/Witnesses18.v
theories/Witnesses19.v
theories/Witnesses20.v
theories/Witnesses21.v
theories/Witnesses22.v
theories/Witnesses23.v
theories/Witnesses24.v
theories/Witnesses25.v
theories/Witnesses26.v
theories/Witnesses27.v
theories/Witnesses28.v
theories/Witnesses29.v
theories/Witnesses30.v
theories/Witnesses31.v
theories/Witnesses32.v
theories/Witnesses33.v
theories/Witnesses34.v
theories/Witnesses35.v
theories/Witnesses36.v
theories/Witnesses37.v
theories/Witnesses38.v
theories/Witnesses39.v
theories/Witnesses40.v
theories/Witnesses41.v
theories/Witnesses42.v
