-Q theories Verif

theories/Base.v
theories/Stream.v
theories/Spec.v
theories/Reader.v
theories/Writer.v
theories/BitsFacts.v
theories/NFacts.v
theories/ReaderFacts.v
theories/FastRead.v
theories/MonadFacts.v
theories/ReaderOps.v
theories/Session.v
theories/SessionFacts.v
theories/ReaderProps.v
theories/FaultFacts.v
theories/P_Reader.v
theories/WSession.v
theories/WriterFacts.v
theories/WriterProps.v
theories/P_Writer.v
theories/Prims.v
theories/CodecSpec.v
theories/CodecFacts.v
theories/PrimFacts.v
theories/PrimProps.v
theories/P_Prims.v
theories/Containers.v
theories/ContainerSpec.v
theories/ContainerFacts.v
theories/Safety.v
theories/ContainerProps.v
theories/P_Containers.v
theories/Derive.v
theories/DeriveSpec.v
theories/DeriveFacts.v
theories/DeriveSound.v
theories/DeriveClosed.v
theories/DeriveProps.v
theories/P_Derive.v
theories/SpellSpec.v
theories/SpellFacts.v
theories/P_Spell.v
theories/SinkSim.v
theories/SourceSim.v
theories/StreamProps.v
theories/ReadStreams.v
theories/Place.v
theories/P_Streams.v
theories/SizeSpec.v
theories/SizeFacts.v
theories/SizeBuffer.v
theories/P_Size.v
theories/BBV.v
theories/BBVSpec.v
theories/BBVSession.v
theories/BBVFacts.v
theories/P_Buffer.v
theories/AttrSpec.v
theories/AttrFacts.v
theories/P_Attrs.v
theories/MoreSpec.v
theories/MoreFacts.v
theories/P_More.v
theories/SafeSpec.v
theories/SafeFacts.v
theories/DeriveSafe.v
theories/FlowSpec.v
theories/FlowFacts.v
theories/P_Safe.v
theories/CanonSpec.v
theories/CanonFacts.v
theories/CanonDerive.v
theories/CanonProps.v
theories/P_Canon.v
theories/MirrorSpec.v
theories/MirrorFacts.v
theories/P_Mirror.v
theories/V_Src.v
theories/V_Derive.v
theories/IdFacts.v
theories/P_Id.v
theories/WSafeSpec.v
theories/WSafeFacts.v
theories/WSafeDerive.v
theories/PostSpec.v
theories/PostFacts.v
theories/P_WSafe.v
theories/Rec.v
theories/RecSpec.v
theories/RecFacts.v
theories/RecProps.v
theories/RecCases.v
theories/P_Rec.v
theories/ByteBuild.v
theories/ByteSpec.v
theories/ByteWrite.v
theories/ByteRead.v
theories/P_Bytes.v
theories/NeedSpec.v
theories/NeedFacts.v
theories/AwaitSpec.v
theories/AwaitFacts.v
theories/P_Need.v
theories/Decl.v
theories/DeclSpec.v
theories/DeclFacts.v
theories/P_Decl.v
theories/V_Docs.v
theories/SugarSpec.v
theories/Sugar.v
theories/P_Sugar.v
theories/Release.v
theories/ReleaseFacts.v
theories/ReleaseProps.v
theories/P_Release.v
theories/PlainSpec.v
theories/PlainFacts.v
theories/PlainSafe.v
theories/PlainRead.v
theories/PlainProps.v
theories/PlainPad.v
theories/PlainOut.v
theories/P_Plain.v
theories/ErrSpec.v
theories/ErrRead.v
theories/ErrWrite.v
theories/P_Err.v
theories/MsgSpec.v
theories/Msgs.v
theories/MsgsOut.v
theories/P_Msgs.v
theories/HashSpec.v
theories/HashProps.v
theories/P_Hash.v
theories/ExampleSpec.v
theories/ExampleProps.v
theories/P_Examples.v
theories/OffsetSpec.v
theories/OffsetProps.v
theories/P_Offset.v
theories/InheritSpec.v
theories/InheritFacts.v
theories/P_Usual.v
theories/Variants.v
theories/VariantSpec.v
theories/VariantProps.v
theories/P_Variants.v
theories/Slots.v
theories/SlotSpec.v
theories/SlotProps.v
theories/P_Slots.v
theories/Errors.v
theories/ErrorProps.v
theories/P_Errors.v
theories/UpdateSpec.v
theories/UpdateFacts.v
theories/P_Update.v
theories/BitFieldSpec.v
theories/BitFields.v
theories/P_BitFields.v
theories/Target.v
theories/TargetSpec.v
theories/TargetRead.v
theories/TargetPlain.v
theories/TargetWrite.v
theories/TargetProps.v
theories/P_Target.v
theories/NestSpec.v
theories/NestFacts.v
theories/NestProps.v
theories/P_Nest.v
theories/Alloc.v
theories/AllocSpec.v
theories/AllocFacts.v
theories/P_Alloc.v
theories/CompatSpec.v
theories/CompatFacts.v
theories/P_Compat.v
theories/UncheckedSpec.v
theories/UncheckedFacts.v
theories/P_Unchecked.v
theories/FailSpec.v
theories/FailFacts.v
theories/P_Fail.v
theories/GrowSpec.v
theories/GrowFacts.v
theories/P_Grow.v
theories/FaultSpec.v
theories/SpendFacts.v
theories/FaultSafe.v
theories/Endure.v
theories/P_Fault.v
theories/StrideSpec.v
theories/StrideFacts.v
theories/CatchSpec.v
theories/CatchFacts.v
theories/P_Stride.v
theories/Chunks.v
theories/ChunkSpec.v
theories/ChunkFacts.v
theories/ProgRead.v
theories/ProgWrite.v
theories/CodeSpec.v
theories/ProgHand.v
theories/P_Chunks.v
theories/PrefixSpec.v
theories/PrefixFacts.v
theories/P_Prefix.v
theories/RetypeSpec.v
theories/RetypeFacts.v
theories/RetypeSigned.v
theories/P_Retype.v
theories/SizeReadSpec.v
theories/SizeReadFacts.v
theories/P_SizeRead.v
theories/LimitSpec.v
theories/LimitFacts.v
theories/LimitAny.v
theories/P_Limits.v
theories/PatchSpec.v
theories/PatchFacts.v
theories/P_Patch.v
theories/ReorderSpec.v
theories/ReorderFacts.v
theories/P_Reorder.v
theories/Width.v
theories/WidthSpec.v
theories/WidthFacts.v
theories/WidthFlow.v
theories/WidthWrite.v
theories/P_Width.v
theories/RewordSpec.v
theories/RewordFacts.v
theories/P_Reword.v
theories/RecFlow.v
theories/P_RecFlow.v
