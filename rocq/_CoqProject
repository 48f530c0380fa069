-Q theories Verif
theories/Lib/Base.v
theories/Lib/Float32.v
theories/Lib/Floats.v
theories/Lib/PyDict.v
theories/Lib/PyStr.v
theories/Lib/PyText.v
theories/Model/Affine.v
theories/Model/Archive.v
theories/Model/Cache.v
theories/Model/Cli.v
theories/Model/Coadd.v
theories/Model/CoaddF4.v
theories/Model/Command.v
theories/Model/DesInfo.v
theories/Model/Epoch.v
theories/Model/Files.v
theories/Model/Flag.v
theories/Model/Fwhm.v
theories/Model/Gaia.v
theories/Model/Go.v
theories/Model/ImageInfo.v
theories/Model/Interp.v
theories/Model/Jobs.v
theories/Model/Keys.v
theories/Model/Lanczos.v
theories/Model/LoadInfo.v
theories/Model/Locate.v
theories/Model/Main.v
theories/Model/Metadata.v
theories/Model/Noise.v
theories/Model/NoiseF4.v
theories/Model/NoiseFiles.v
theories/Model/ObjectData.v
theories/Model/Order.v
theories/Model/Piff.v
theories/Model/PiffCell.v
theories/Model/Pool.v
theories/Model/Process.v
theories/Model/PsfImage.v
theories/Model/Resample.v
theories/Model/Runs.v
theories/Model/Sched.v
theories/Model/SeImage.v
theories/Model/SeWcs.v
theories/Model/SingleSlice.v
theories/Model/SkyBounds.v
theories/Model/SliceF4.v
theories/Model/SliceInputs.v
theories/Model/SliceRange.v
theories/Model/Symmetrize.v
theories/Model/TapeBumps.v
theories/Model/TileInfo.v
theories/Model/WcsGrid.v
theories/Model/Whole.v
theories/Model/Wrap.v
theories/Model/Writer.v
theories/Proofs/AffineF64.v
theories/Proofs/AffineProofs.v
theories/Proofs/ArchiveProofs.v
theories/Proofs/BaseFacts.v
theories/Proofs/CliProofs.v
theories/Proofs/CoaddF32.v
theories/Proofs/CoaddF64.v
theories/Proofs/CoaddProofs.v
theories/Proofs/CommandProofs.v
theories/Proofs/DesInfoProofs.v
theories/Proofs/EdgeCopyProofs.v
theories/Proofs/EpochF64.v
theories/Proofs/EpochProofs.v
theories/Proofs/F64Facts.v
theories/Proofs/FilesProofs.v
theories/Proofs/FlagListProofs.v
theories/Proofs/FlagProofs.v
theories/Proofs/FlatProofs.v
theories/Proofs/Float32Facts.v
theories/Proofs/FwhmF64.v
theories/Proofs/FwhmProofs.v
theories/Proofs/GaiaF64.v
theories/Proofs/GaiaProofs.v
theories/Proofs/GoProofs.v
theories/Proofs/InterpProofs.v
theories/Proofs/JacobianF64.v
theories/Proofs/JobsProofs.v
theories/Proofs/KeysProofs.v
theories/Proofs/LanczosF64.v
theories/Proofs/LanczosProofs.v
theories/Proofs/LoadInfoProofs.v
theories/Proofs/LocateProofs.v
theories/Proofs/MainProofs.v
theories/Proofs/MedianF64.v
theories/Proofs/MetadataProofs.v
theories/Proofs/NearestF64.v
theories/Proofs/NoiseF32.v
theories/Proofs/NoiseF64.v
theories/Proofs/NoiseFilesProofs.v
theories/Proofs/NoiseProofs.v
theories/Proofs/NpSum.v
theories/Proofs/ObjectDataProofs.v
theories/Proofs/OrderF64.v
theories/Proofs/OrderProofs.v
theories/Proofs/PiffCellProofs.v
theories/Proofs/PiffProofs.v
theories/Proofs/PolyPos.v
theories/Proofs/PoolProofs.v
theories/Proofs/ProcessProofs.v
theories/Proofs/PsfF64.v
theories/Proofs/PsfProofs.v
theories/Proofs/PsfSumF64.v
theories/Proofs/PyStrProofs.v
theories/Proofs/ResampleF64.v
theories/Proofs/ResampleProofs.v
theories/Proofs/RoundSum.v
theories/Proofs/RunProofs.v
theories/Proofs/RunsCliProofs.v
theories/Proofs/RunsProofs.v
theories/Proofs/ScaleF64.v
theories/Proofs/SchedProofs.v
theories/Proofs/SeImageProofs.v
theories/Proofs/SeWcsProofs.v
theories/Proofs/SeedProofs.v
theories/Proofs/SelectProofs.v
theories/Proofs/SincProofs.v
theories/Proofs/SingleSliceProofs.v
theories/Proofs/SkyBoundsF64.v
theories/Proofs/SkyBoundsProofs.v
theories/Proofs/SliceBoundsF64.v
theories/Proofs/SliceF32.v
theories/Proofs/SliceInputsProofs.v
theories/Proofs/StampF64.v
theories/Proofs/SymmetrizeProofs.v
theories/Proofs/TapeProofs.v
theories/Proofs/TileInfoProofs.v
theories/Proofs/UsedProofs.v
theories/Proofs/VarianceF32.v
theories/Proofs/VarianceF64.v
theories/Proofs/WcsGridF64.v
theories/Proofs/WcsGridProofs.v
theories/Proofs/WeightF64.v
theories/Proofs/WeightProofs.v
theories/Proofs/WholeF64.v
theories/Proofs/WholeProofs.v
theories/Proofs/WrapF64.v
theories/Proofs/WrapProofs.v
theories/Proofs/WriterProofs.v
theories/Props/PropAffine.v
theories/Props/PropAffineF64.v
theories/Props/PropArchive.v
theories/Props/PropCli.v
theories/Props/PropCoadd.v
theories/Props/PropCommand.v
theories/Props/PropDesInfo.v
theories/Props/PropEpoch.v
theories/Props/PropEpochF64.v
theories/Props/PropFiles.v
theories/Props/PropFlag.v
theories/Props/PropFlagList.v
theories/Props/PropFlat.v
theories/Props/PropFlatF64.v
theories/Props/PropFwhm.v
theories/Props/PropFwhmF64.v
theories/Props/PropGaia.v
theories/Props/PropGaiaF64.v
theories/Props/PropGo.v
theories/Props/PropInterp.v
theories/Props/PropJacobianF64.v
theories/Props/PropKeys.v
theories/Props/PropLanczos.v
theories/Props/PropLanczosF64.v
theories/Props/PropLoadInfo.v
theories/Props/PropLocate.v
theories/Props/PropMain.v
theories/Props/PropMetadata.v
theories/Props/PropNoise.v
theories/Props/PropNoiseFiles.v
theories/Props/PropObjectData.v
theories/Props/PropOrder.v
theories/Props/PropOrderF64.v
theories/Props/PropPiff.v
theories/Props/PropPiffCell.v
theories/Props/PropPiffF64.v
theories/Props/PropPool.v
theories/Props/PropProcess.v
theories/Props/PropPsf.v
theories/Props/PropPsfSum.v
theories/Props/PropResample.v
theories/Props/PropResampleF64.v
theories/Props/PropRun.v
theories/Props/PropRuns.v
theories/Props/PropRunsCli.v
theories/Props/PropSeImage.v
theories/Props/PropSeWcs.v
theories/Props/PropSeWcsF64.v
theories/Props/PropSeeds.v
theories/Props/PropSingle.v
theories/Props/PropSingleFile.v
theories/Props/PropSingleSlice.v
theories/Props/PropSkyBoundsF64.v
theories/Props/PropSliceInputs.v
theories/Props/PropSlices.v
theories/Props/PropSum.v
theories/Props/PropSymmetrize.v
theories/Props/PropTileInfo.v
theories/Props/PropWcsGrid.v
theories/Props/PropWcsGridF64.v
theories/Props/PropWhole.v
theories/Props/PropWholeF64.v
theories/Props/PropWrap.v
theories/Spec/AffineSpec.v
theories/Spec/ArchiveSpec.v
theories/Spec/CliSpec.v
theories/Spec/CoaddSpec.v
theories/Spec/CommandSpec.v
theories/Spec/DesInfoSpec.v
theories/Spec/EpochF64Spec.v
theories/Spec/EpochSpec.v
theories/Spec/FilesSpec.v
theories/Spec/FlagListSpec.v
theories/Spec/FlagSpec.v
theories/Spec/Float32Spec.v
theories/Spec/FloatSpec.v
theories/Spec/FwhmSpec.v
theories/Spec/GaiaSpec.v
theories/Spec/GoSpec.v
theories/Spec/InterpSpec.v
theories/Spec/KeysSpec.v
theories/Spec/LanczosSpec.v
theories/Spec/LoadInfoSpec.v
theories/Spec/LocateSpec.v
theories/Spec/MainSpec.v
theories/Spec/MetadataSpec.v
theories/Spec/NoiseFilesSpec.v
theories/Spec/NoiseSpec.v
theories/Spec/ObjectDataSpec.v
theories/Spec/OrderSpec.v
theories/Spec/PiffCellSpec.v
theories/Spec/PiffSpec.v
theories/Spec/PoolSpec.v
theories/Spec/ProcessSpec.v
theories/Spec/PsfSpec.v
theories/Spec/ResampleF64Spec.v
theories/Spec/ResampleSpec.v
theories/Spec/RunSpec.v
theories/Spec/RunsCliSpec.v
theories/Spec/RunsSpec.v
theories/Spec/SeImageSpec.v
theories/Spec/SeWcsSpec.v
theories/Spec/SeedSpec.v
theories/Spec/SingleSliceSpec.v
theories/Spec/SliceInputsSpec.v
theories/Spec/SumSpec.v
theories/Spec/SymSpec.v
theories/Spec/TileInfoSpec.v
theories/Spec/WcsGridSpec.v
theories/Spec/WholeF64Spec.v
theories/Spec/WholeSpec.v
theories/Spec/WrapSpec.v
theories/Spec/WriterSpec.v
