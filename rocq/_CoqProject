-Q theories Verif
theories/Base.v
theories/Env.v
theories/Circuit.v
theories/SparseMT.v
theories/SparseMTGadget.v
theories/Data.v
theories/Gadgets.v
theories/Schnorr.v
theories/HMap.v
theories/Contract.v
theories/Aggregator.v
theories/User.v
theories/SparseMTSpec.v
theories/DataSpec.v
theories/ContractSpec.v
theories/AggCircuit.v
theories/AggCircuitSpec.v
theories/TruthSpec.v
theories/SparseMTHeap.v
theories/SparseMTRep.v
theories/SparseMTNew.v
theories/SparseMTProofs.v
theories/TreeTotal.v
theories/Toy.v
theories/SparseMTGadgetProofs.v
theories/DataFacts.v
theories/GadgetsProofs.v
theories/SchnorrProofs.v
theories/PropsData.v
theories/PropsContract.v
theories/AggSpec.v
theories/AggFacts.v
theories/AggSign.v
theories/AggIntake.v
theories/PropsBlock.v
theories/PropsTree.v
theories/PropsIntake.v
theories/PropsSchnorr.v
theories/PropsSign.v
theories/AggCircuitFacts.v
theories/CircuitRun.v
theories/PropsCircuit.v
theories/PropsCircuit2.v
theories/PropsValue.v
theories/PropsCircuit3.v
theories/Honest.v
theories/PropsHonest.v
theories/PropsLimits.v
theories/Client.v
theories/ClientSpec.v
theories/ClientFacts.v
theories/PropsClient.v
theories/PropsClient2.v
theories/PropsClient3.v
theories/PropsClient4.v
theories/Clean.v
theories/PropsSpoil.v
theories/PropsWrap.v
theories/PropsWitness.v
theories/PropsClient5.v
theories/PropsClient6.v
theories/PropsUsers.v
theories/PropsUser.v
theories/ExactSpec.v
theories/PropsExact.v
theories/Place.v
theories/PropsPlace.v
theories/PropsUnlinked.v
theories/PropsTruth.v
theories/PropsTruth2.v
theories/PropsReport.v
theories/PropsPad.v
theories/PropsRecord.v
theories/PropsTable.v
theories/PropsLife.v
theories/PropsStranger.v
theories/PropsSplit.v
theories/PropsShape.v
theories/PropsSchnorr2.v
theories/PropsSchnorr3.v
theories/PropsLive.v
theories/PropsReplay.v
theories/Claims.v
theories/PropsClaims.v
theories/PropsMute.v
theories/PropsPublish.v
theories/PropsPublic.v
theories/PropsProvable.v
theories/PropsPanic.v
theories/PropsOrder.v
theories/PropsOmit.v
theories/PropsL1.v
theories/PropsMint.v
theories/PropsError.v
theories/Ledger.v
theories/PropsLedger.v
theories/PropsHidden.v
theories/PropsHash.v
theories/Follow.v
theories/PropsFollow.v
theories/PropsExit.v
theories/PropsDiligent.v
theories/PropsDet.v
theories/PropsCredit.v
theories/CrashUser.v
theories/PropsCrashUser.v
theories/Crash.v
theories/PropsCrash.v
theories/PropsClient7.v
theories/PropsCapacity.v
theories/PropsBooks.v
theories/PropsBlind.v
theories/PropsBatch.v
theories/ArkTree.v
theories/PropsArk.v
theories/PropsAnswers.v
theories/ExamplesAgg.v
theories/ExamplesCircuit.v
theories/ExamplesWitness.v
theories/ExamplesPlace.v
theories/ExamplesUnlinked.v
theories/ExamplesTruth.v
theories/ExamplesError.v
theories/ExamplesTable.v
theories/ExamplesLive.v
theories/ExamplesExit.v
theories/ExamplesStranger.v
theories/ExamplesSpoil.v
theories/ExamplesClient.v
theories/ExamplesSplit.v
theories/ExamplesRepo.v
theories/ExamplesReplay.v
theories/ExamplesRecord.v
theories/ExamplesClaims.v
theories/ExamplesPublish.v
theories/ExamplesPublic.v
theories/ExamplesProvable.v
theories/ExamplesPanic.v
theories/ExamplesPad.v
theories/ExamplesOrder.v
theories/ExamplesOmit.v
theories/ExamplesLife.v
theories/ExamplesLedger.v
theories/ExamplesL1.v
theories/ExamplesHidden.v
theories/ExamplesHash.v
theories/ExamplesFollow.v
theories/ExamplesExact.v
theories/ExamplesDiligent.v
theories/ExamplesCredit.v
theories/ExamplesCrashUser.v
theories/ExamplesCrash.v
theories/ExamplesCapacity.v
theories/ExamplesBatch.v
theories/ExamplesAnswers.v
