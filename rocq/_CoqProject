-Q theories Verif
theories/Py.v
theories/Segments.v
theories/Version.v
theories/VersionSets.v
theories/Operators.v
theories/SetStrings.v
theories/Specifiers.v
theories/Regex.v
theories/Patterns.v
theories/Parsers.v
theories/Orders.v
theories/Cuts.v
theories/SetItems.v
theories/SetChains.v
theories/SetMerge.v
theories/SetOps.v
theories/Spec.v
theories/OrderFacts.v
theories/PropOrder.v
theories/Density.v
theories/SetVersions.v
theories/SetTheorems.v
theories/SetAlgebra.v
theories/SetCounter.v
theories/DepthFacts.v
theories/PropSets.v
theories/BumpFacts.v
theories/PropBumps.v
theories/Classes.v
theories/Stepper.v
theories/Dispatch.v
theories/OperatorFacts.v
theories/SpecifierFacts.v
theories/PropSpecifiers.v
theories/Grammar.v
theories/RegexFacts.v
theories/Unambiguous.v
theories/VersionRegex.v
theories/ParseFacts.v
theories/ParseTheorems.v
theories/PropParsing.v
theories/Clauses.v
theories/ClauseRegex.v
theories/ClauseFacts.v
theories/SpecText.v
theories/SpecParse.v
theories/SpecStrings.v
theories/Provenance.v
theories/SetTexts.v
theories/SpecFailures.v
theories/SpecErrors.v
theories/SpecMeaning.v
theories/PropClauses.v
theories/Caches.v
theories/Histories.v
theories/EqualFacts.v
theories/CacheFacts.v
theories/Remembered.v
theories/RememberedFacts.v
theories/ShelfFacts.v
theories/PropCaches.v
theories/Normal.v
theories/PropNormal.v
theories/Rich.v
theories/Meta.v
theories/SegmentSpec.v
theories/RichFacts.v
theories/AccessFacts.v
theories/MetaFacts.v
theories/PropObjects.v
theories/Hashes.v
theories/RangeSpec.v
theories/BumpSpec.v
theories/RelationFacts.v
theories/HashFacts.v
theories/OpFacts.v
theories/BumpLeast.v
theories/Precision.v
theories/PropRelations.v
theories/Compose.v
theories/SetNames.v
theories/CandidateFacts.v
theories/SetExact.v
theories/SpecNames.v
theories/SpecBlur.v
theories/PropTexts.v
theories/Outcomes.v
theories/PropOutcomes.v
theories/ClassSpec.v
theories/ClassFacts.v
theories/StepperFacts.v
theories/RangeShape.v
theories/PropClasses.v
theories/ProjectTests.v
theories/PepSpec.v
theories/PepFacts.v
theories/PropPep.v
theories/SizeSpec.v
theories/SizeFacts.v
theories/EdgeFacts.v
theories/PropSizes.v
theories/Ints.v
theories/IntSpec.v
theories/IntFacts.v
theories/PropInts.v
theories/Padding.v
theories/PadFacts.v
theories/PropPadding.v
theories/PepClauses.v
theories/PepClauseFacts.v
theories/PropPepClauses.v
theories/Limits.v
theories/LimitSpec.v
theories/LimitFacts.v
theories/LimitClauses.v
theories/PropLimits.v
theories/Typed.v
theories/TypedSpec.v
theories/TypedFacts.v
theories/PropTyped.v
theories/Errors.v
theories/ErrorFacts.v
theories/PropErrors.v
theories/Compare.v
theories/CompareSpec.v
theories/CompareFacts.v
theories/PropCompare.v
theories/PatternText.v
theories/Compile.v
theories/PatternFacts.v
theories/PatternTheorems.v
theories/PropPatterns.v
theories/Steps.v
theories/StepFacts.v
theories/PropSteps.v
theories/Loops.v
theories/LoopFacts.v
theories/PropLoops.v
theories/PepForm.v
theories/PepFormFacts.v
theories/PropPepForm.v
theories/GenericSets.v
theories/GenericFacts.v
theories/TypedSets.v
theories/MixedSpec.v
theories/MixedFacts.v
theories/RenameFacts.v
theories/TypedSetFacts.v
theories/PropGeneric.v
theories/TypedCaches.v
theories/SeparateSpec.v
theories/SeparateFacts.v
theories/SeparateStates.v
theories/SeparateBack.v
theories/SeparateMain.v
theories/SeparateMixed.v
theories/PropSeparate.v
theories/SegmentMethods.v
theories/SegmentMethodFacts.v
theories/PropSegmentMethods.v
theories/Groups.v
theories/GroupFacts.v
theories/PropGroups.v
theories/Versioned.v
theories/VersionedFacts.v
theories/PropVersioned.v
theories/Foreign.v
theories/ForeignFacts.v
theories/PropForeign.v
theories/NestSpec.v
theories/NestFacts.v
theories/PropNesting.v
theories/LooseSpec.v
theories/LooseFacts.v
theories/PropLoose.v
theories/RawFacts.v
theories/PropRaw.v
theories/PythonSpec.v
theories/PythonFacts.v
theories/PropPython.v
theories/Messages.v
theories/MessageSpec.v
theories/MessageFacts.v
theories/PropMessages.v
theories/RawFailures.v
theories/PropRawFailures.v
theories/Refusals.v
theories/RefusalFacts.v
theories/PropRefusals.v
theories/Counts.v
theories/ConvertCounts.v
theories/CountSpec.v
theories/CountFacts.v
theories/MergeCounts.v
theories/ConvertCountFacts.v
theories/AcceptCounts.v
theories/AcceptCountFacts.v
theories/PropCounts.v
theories/NeedSpec.v
theories/NeedFacts.v
theories/PropNeed.v
theories/DecideSpec.v
theories/DecideFacts.v
theories/PropDecide.v
theories/DenseSpec.v
theories/DenseFacts.v
theories/PropDense.v
theories/SemVerSpec.v
theories/SemVerFacts.v
theories/PropSemVer.v
theories/CarrySpec.v
theories/CarryFacts.v
theories/PropCarry.v
theories/Threads.v
theories/ThreadSpec.v
theories/ThreadFacts.v
theories/PropThreads.v
theories/StableFacts.v
theories/PropStable.v
theories/ParenSpec.v
theories/ParenFacts.v
theories/PropParens.v
theories/PepOrderSpec.v
theories/PepOrderFacts.v
theories/PropPepOrder.v
theories/ShapeSpec.v
theories/ShapeFacts.v
theories/PropShape.v
theories/PrefixSpec.v
theories/PrefixFacts.v
theories/PropPrefixes.v
theories/ArrangeSpec.v
theories/ArrangeFacts.v
theories/StayFacts.v
theories/PropStay.v
theories/PropArrange.v
theories/ProbeSpec.v
theories/ProbeFacts.v
theories/PropProbe.v
theories/EpochSpec.v
theories/CommuteFacts.v
theories/EpochFacts.v
theories/PropEpoch.v
theories/LocalSpec.v
theories/LocalFacts.v
theories/PropLocal.v
theories/AroundSpec.v
theories/AroundFacts.v
theories/PropAround.v
theories/MajorSpec.v
theories/MajorFacts.v
theories/PropMajor.v
