-Q theories Verif
theories/Base.v
theories/Registry.v
theories/Spec.v
theories/ModelClasses.v
theories/ModelMethods.v
theories/ModelSlots.v
theories/ModelTables.v
theories/ModelHash.v
theories/ModelWorld.v
theories/ModelCall.v
theories/ModelLife.v
theories/SpecCall.v
theories/SpecLife.v
theories/Decide.v
theories/ExamplesModel.v
theories/ProofBase.v
theories/ProofClasses.v
theories/ProofGraph.v
theories/ProofMethods.v
theories/ProofBits.v
theories/ProofSlots.v
theories/ProofSelect.v
theories/ProofTables.v
theories/ProofCompile.v
theories/ProofErrors.v
theories/ProofEntries.v
theories/ProofWrite.v
theories/ProofHash.v
theories/ProofWorld.v
theories/ProofLife.v
theories/ProofRelease.v
theories/ProofCall.v
theories/ProofDispatch.v
theories/ProofInvariance.v
theories/ProofBehaviour.v
theories/ExamplesDispatch.v
theories/ProofFindings.v
theories/PropDispatch.v
theories/ProofSafety.v
theories/PropErrors.v
theories/ProofVptr.v
theories/ExamplesVptr.v
theories/PropVptr.v
theories/ProofCells.v
theories/ProofNext.v
theories/ExamplesNext.v
theories/ProofReport.v
theories/ProofRows.v
theories/ExamplesReport.v
theories/PropNext.v
theories/PropReport.v
theories/ProofReinit.v
theories/ProofFail.v
theories/ExamplesLife.v
theories/ExamplesRelease.v
theories/PropLife.v
theories/PropRelease.v
theories/ModelVirtualPtr.v
theories/SpecVirtualPtr.v
theories/ProofVirtualPtr.v
theories/ExamplesVirtualPtr.v
theories/PropVirtualPtr.v
theories/ModelStaticList.v
theories/SpecStaticList.v
theories/ProofStaticList.v
theories/ExamplesStaticList.v
theories/PropStaticList.v
theories/ModelErrors.v
theories/SpecErrors.v
theories/ProofHandlers.v
theories/ExamplesHandlers.v
theories/PropHandlers.v
theories/SpecN2216.v
theories/ProofN2216.v
theories/ProofN2216Next.v
theories/ExamplesN2216.v
theories/PropN2216.v
theories/ModelInplace.v
theories/SpecInplace.v
theories/ProofInplace.v
theories/ExamplesInplace.v
theories/PropInplace.v
theories/ModelUseClasses.v
theories/SpecUseClasses.v
theories/ProofUseClasses.v
theories/ExamplesUseClasses.v
theories/PropUseClasses.v
theories/ModelPolicies.v
theories/SpecPolicies.v
theories/ProofPolicies.v
theories/ExamplesPolicies.v
theories/PropPolicies.v
theories/ModelRegistries.v
theories/SpecRegistries.v
theories/ProofRegistries.v
theories/ExamplesRegistries.v
theories/PropRegistries.v
theories/ModelRegistrars.v
theories/SpecRegistrars.v
theories/ProofRegistrars.v
theories/ProofRegistrarOrder.v
theories/ExamplesRegistrars.v
theories/PropRegistrars.v
theories/ModelArguments.v
theories/SpecArguments.v
theories/ProofArguments.v
theories/ProofArgumentsPhases.v
theories/ProofArgumentsCall.v
theories/ProofArgumentsProgram.v
theories/ExamplesArguments.v
theories/PropArguments.v
theories/SpecModules.v
theories/ProofModules.v
theories/ExamplesModules.v
theories/PropModules.v
theories/SpecRuns.v
theories/ProofRuns.v
theories/ExamplesRuns.v
theories/PropRuns.v
theories/ModelCasts.v
theories/SpecCasts.v
theories/ProofCasts.v
theories/ProofCastsProgram.v
theories/ExamplesCasts.v
theories/PropCasts.v
theories/ModelSignature.v
theories/SpecSignature.v
theories/ProofSignature.v
theories/ExamplesSignature.v
theories/PropSignature.v
theories/SpecReads.v
theories/ProofReads.v
theories/ExamplesReads.v
theories/PropReads.v
theories/ModelMemory.v
theories/SpecMemory.v
theories/ProofMemory.v
theories/ExamplesMemory.v
theories/PropMemory.v
theories/SpecChain.v
theories/ProofChain.v
theories/ExamplesChain.v
theories/PropChain.v
theories/ExamplesTests.v
theories/ModelMacros.v
theories/SpecMacros.v
theories/ProofMacros.v
theories/ExamplesMacros.v
theories/PropMacros.v
theories/ModelOdr.v
theories/SpecOdr.v
theories/ProofOdr.v
theories/ExamplesOdr.v
theories/PropOdr.v
theories/ModelProgram.v
theories/SpecProgram.v
theories/ProofProgram.v
theories/ProofProgramCalls.v
theories/ExamplesProgram.v
theories/PropProgram.v
theories/ModelOwning.v
theories/SpecOwning.v
theories/ProofOwning.v
theories/ProofOwningSteps.v
theories/ExamplesOwning.v
theories/PropOwning.v
theories/ModelConversions.v
theories/SpecConversions.v
theories/ProofConversions.v
theories/ExamplesConversions.v
theories/PropConversions.v
theories/ModelOptions.v
theories/SpecOptions.v
theories/ProofOptions.v
theories/ExamplesOptions.v
theories/PropOptions.v
theories/ModelCompare.v
theories/SpecCompare.v
theories/ProofCompare.v
theories/ExamplesCompare.v
theories/PropCompare.v
theories/ModelResults.v
theories/SpecResults.v
theories/ProofResults.v
theories/ExamplesResults.v
theories/PropResults.v
theories/ModelMessages.v
theories/SpecMessages.v
theories/ProofMessages.v
theories/ExamplesMessages.v
theories/PropMessages.v
theories/ModelThreads.v
theories/SpecThreads.v
theories/ProofThreads.v
theories/ExamplesThreads.v
theories/PropThreads.v
theories/SpecPhases.v
theories/ProofPhases.v
theories/ExamplesPhases.v
theories/PropPhases.v
theories/ModelTrace.v
theories/SpecTrace.v
theories/ProofTrace.v
theories/ProofTraceRead.v
theories/ProofTraceCalls.v
theories/ProofTraceNext.v
theories/ProofTraceMissing.v
theories/ExamplesTrace.v
theories/PropTrace.v
theories/ModelFlat.v
theories/SpecFlat.v
theories/ProofFlat.v
theories/ProofFlatSingle.v
theories/ProofFlatEntries.v
theories/ExamplesFlat.v
theories/PropFlat.v
