-Q theories Verif
theories/Base.v
theories/Buffers.v
theories/Wire.v
theories/Schema.v
theories/Fields.v
theories/Message.v
theories/Api.v
theories/Spec.v
theories/Contracts.v
theories/BitLemmas.v
theories/WriteProofs.v
theories/ReadProofs.v
theories/ScalarProofs.v
theories/BufferProofs.v
theories/Struct.v
theories/SerProofs.v
theories/WireProps.v
theories/PropertiesWire.v
theories/SpecBuffer.v
theories/BufferProps.v
theories/BufferLaws.v
theories/PropertiesBuffer.v
theories/Samples.v
theories/SerProps.v
theories/PropertiesSer.v
theories/Tables.v
theories/DecodeProofs.v
theories/RoundTrip.v
theories/ClearProofs.v
theories/DecodeProps.v
theories/DecodeSamples.v
theories/PropertiesDecode.v
theories/SafetyProofs.v
theories/SafetyMsg.v
theories/SafetyProps.v
theories/PropertiesSafety.v
theories/SpecApi.v
theories/TidyProofs.v
theories/AssignProofs.v
theories/ApiProofs.v
theories/AnyBuffer.v
theories/ApiProps.v
theories/ApiSamples.v
theories/PropertiesApi.v
theories/SpecRead.v
theories/ReadAny.v
theories/ReadTotal.v
theories/SpecMalformed.v
theories/MalformedProps.v
theories/MalformedSamples.v
theories/PropertiesMalformed.v
theories/Printf.v
theories/ToString.v
theories/SpecToString.v
theories/ToStringProofs.v
theories/ToStringProps.v
theories/ToStringExact.v
theories/ToStringSamples.v
theories/PropertiesToString.v
theories/Generator.v
theories/SpecGenerator.v
theories/SpecParams.v
theories/GenOrder.v
theories/GenSort.v
theories/GenReg.v
theories/GenRender.v
theories/GenTypes.v
theories/GenOnce.v
theories/GenNames.v
theories/GenProps.v
theories/GenDeclared.v
theories/GenParams.v
theories/GenAcceptAll.v
theories/EndlessSamples.v
theories/GenShadow.v
theories/GenTopo.v
theories/GenAccept.v
theories/GenSamples.v
theories/SpecLonger.v
theories/GenSingle.v
theories/GenLonger.v
theories/LongerSamples.v
theories/PropertiesGenerator.v
theories/SpecLoad.v
theories/LoadProps.v
theories/PropertiesFixed.v
theories/GenMembers.v
theories/SpecMembers.v
theories/GenMemberKeys.v
theories/GenMembersProofs.v
theories/GenMembersUses.v
theories/GenMembersProps.v
theories/GenMembersSamples.v
theories/PropertiesMembers.v
theories/Compare.v
theories/SpecCompare.v
theories/CompareProps.v
theories/FloatProps.v
theories/PropertiesCompare.v
theories/GenFiles.v
theories/SpecFiles.v
theories/GenFilesProps.v
theories/GenFilesSamples.v
theories/PropertiesFiles.v
theories/GenCode.v
theories/SpecInstance.v
theories/GenInstance.v
theories/GenInstanceSamples.v
theories/GenInstanceWire.v
theories/PropertiesInstance.v
theories/SpecRetype.v
theories/RetypeProofs.v
theories/SpecVersions.v
theories/VersionProofs.v
theories/VersionSamples.v
theories/PropertiesVersions.v
theories/Alias.v
theories/SpecAlias.v
theories/AliasProofs.v
theories/AliasSamples.v
theories/PropertiesAlias.v
theories/PropertiesRetype.v
theories/SpecReorder.v
theories/ReorderProofs.v
theories/PropertiesReorder.v
theories/GenEnum.v
theories/SpecEnum.v
theories/EnumProofs.v
theories/PropertiesEnum.v
theories/SpecHistory.v
theories/CleanProofs.v
theories/HistoryProps.v
theories/PropertiesHistory.v
theories/SpecExact.v
theories/ExactProofs.v
theories/PropertiesExact.v
theories/GenBody.v
theories/SpecBody.v
theories/GenBodyRun.v
theories/GenBodySound.v
theories/GenBodyOneof.v
theories/GenBodySer.v
theories/GenBodyDes.v
theories/GenBodyApi.v
theories/GenBodyLegal.v
theories/GenBodyCalls.v
theories/GenBodyObject.v
theories/GenBodySamples.v
theories/PropertiesBody.v
theories/GenBodyPrint.v
theories/SpecWork.v
theories/WorkProofs.v
theories/PropertiesWork.v
theories/Metered.v
theories/MeteredProofs.v
theories/MeteredProps.v
theories/MeteredPasses.v
theories/SpecRefused.v
theories/ValueLaws.v
theories/RefusedProps.v
theories/ConfinedLaws.v
theories/CutProofs.v
theories/LawSamples.v
theories/PropertiesLaws.v
theories/PropertiesRefused.v
theories/SpecWrite.v
theories/SpecAlike.v
theories/AlikeProofs.v
theories/AlikeProps.v
theories/PropertiesAlike.v
theories/SpecSize.v
theories/SizeProofs.v
theories/PropertiesSize.v
theories/Stack.v
theories/SpecStack.v
theories/StackProofs.v
theories/StackNeeded.v
theories/PropertiesStack.v
theories/AloneProofs.v
theories/PropertiesAlone.v
theories/SameProofs.v
theories/PropertiesSame.v
theories/SpecFieldOrder.v
theories/FieldOrderProofs.v
theories/FieldOrderSamples.v
theories/PropertiesFieldOrder.v
theories/SpecAccess.v
theories/AccessProofs.v
theories/PropertiesAccess.v
theories/Stream.v
theories/SpecStream.v
theories/StreamProofs.v
theories/PropertiesStream.v
theories/SpecRelay.v
theories/RelayProofs.v
theories/RelayOneof.v
theories/RelaySamples.v
theories/PropertiesRelay.v
theories/AliasText.v
theories/AliasTextProofs.v
theories/PropertiesAliasText.v
theories/Kept.v
theories/SpecKept.v
theories/KeptProofs.v
theories/KeptSamples.v
theories/PropertiesKept.v
theories/SpecMentions.v
theories/MentionsProofs.v
theories/MentionsSamples.v
theories/PropertiesMentions.v
theories/SpecTwice.v
theories/TwiceProofs.v
theories/TwiceParts.v
theories/TwiceSamples.v
theories/PropertiesTwice.v
theories/SpecMerge.v
theories/MergeProofs.v
theories/MergeLaws.v
theories/MergeSamples.v
theories/PropertiesMerge.v
theories/SpecTalk.v
theories/TalkProofs.v
theories/TalkSamples.v
theories/PropertiesTalk.v
theories/RepoTests.v
theories/SpecUpdate.v
theories/UpdateProofs.v
theories/UpdateSamples.v
theories/PropertiesUpdate.v
theories/SpecWider.v
theories/WiderProofs.v
theories/WiderSer.v
theories/WiderSamples.v
theories/PropertiesWider.v
theories/SpecTogether.v
theories/GenTogether.v
theories/GenTogether2.v
theories/GenTogether3.v
theories/TogetherSamples.v
theories/PropertiesTogether.v
theories/SpecEvolve.v
theories/EvolveProofs.v
theories/EvolveSamples.v
theories/PropertiesEvolve.v
theories/SpecPrograms.v
theories/ProgramsProofs.v
theories/ProgramsSamples.v
theories/PropertiesPrograms.v
theories/GenPlugin.v
theories/SpecPlugin.v
theories/PluginProofs.v
theories/PluginSamples.v
theories/PropertiesPlugin.v
theories/RoomProofs.v
theories/RoomSamples.v
theories/PropertiesRoom.v
theories/SpecCalls.v
theories/CallsProofs.v
theories/CallsSamples.v
theories/PropertiesCalls.v
theories/ListSize.v
theories/ListSizeProofs.v
theories/PropertiesListSize.v
