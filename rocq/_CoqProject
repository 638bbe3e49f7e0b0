-Q theories Verif
theories/Base.v
theories/GoText.v
theories/Model1.v
theories/Model2.v
theories/Model3.v
theories/Model4.v
theories/Storage.v
theories/RefStorage.v
theories/Tests.v
theories/SpecText.v
theories/SpecMachine.v
theories/Codec.v
theories/Inv.v
theories/Wp.v
theories/Steps.v
theories/Entity.v
theories/BitProofs.v
theories/Reads.v
theories/CharProofs.v
theories/WordProofs.v
theories/PhraseProofs.v
theories/DetailProofs.v
theories/StoryProofs.v
theories/RefProofs.v
theories/Utf8Proofs.v
theories/Spec.v
theories/HistoryProofs.v
theories/ApiProofs.v
theories/SpecLayers.v
theories/LayerProofs.v
theories/InitProofs.v
theories/SpecGuards.v
theories/SpecWalk.v
theories/GuardProofs.v
theories/SpecPlay.v
theories/SpecCost.v
theories/PlayProofs.v
theories/LaterProofs.v
theories/EmptyProofs.v
theories/SpecMoments.v
theories/SpecCrowd.v
theories/MomentProofs.v
theories/LookupProofs.v
theories/WalkProofs.v
theories/CallProofs.v
theories/CrowdLogic.v
theories/CrowdWrites.v
theories/CrowdCalls.v
theories/CrowdReads.v
theories/CrowdProofs.v
theories/CrowdStates.v
theories/CrowdTexts.v
theories/CrowdRemarks.v
theories/CrowdTold.v
theories/CrowdFresh.v
theories/SpecGrowth.v
theories/GrowthProofs.v
theories/SpecEntities.v
theories/SpecFactories.v
theories/SpecSpelling.v
theories/SpecKept.v
theories/SpecSiblings.v
theories/WriteProofs.v
theories/StoryWrites.v
theories/SiblingProofs.v
theories/FactoryProofs.v
theories/GuardFaults.v
theories/SpellProofs.v
theories/KeptProofs.v
theories/ExtendProofs.v
theories/OrderProofs.v
theories/PathProofs.v
theories/FaultProofs.v
theories/Claims.v
theories/WalkCases.v
theories/SpellCases.v
theories/KeptCases.v
theories/OrderCases.v
theories/SiblingCases.v
theories/FuelProofs.v
theories/CostProofs.v
theories/Refute.v
theories/Samples.v
theories/Properties.v
