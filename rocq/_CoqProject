-Q theories Verif
theories/Base.v
theories/Flt.v
theories/Layout.v
theories/Rng.v
theories/Sorts.v
theories/Alloc.v
theories/Prog.v
theories/Imbalance.v
theories/Dist.v
theories/Build.v
theories/Policy.v
theories/Index.v
theories/Search.v
theories/QConc.v
theories/Slice.v
theories/Builder.v
theories/Shared.v
theories/Exact.v
theories/Vec.v
theories/Lib.v
theories/Spec.v
theories/ForestSpec.v
theories/StateSpec.v
theories/ConcSpec.v
theories/RealSpec.v
theories/OrderSpec.v
theories/CostSpec.v
theories/MetricSpec.v
theories/QConcSpec.v
theories/LayoutProof.v
theories/FltProof.v
theories/MemProof.v
theories/StoreProof.v
theories/ActsProof.v
theories/StateProof.v
theories/SortsProof.v
theories/NumProof.v
theories/SearchProof.v
theories/QueryProof.v
theories/MiscProof.v
theories/RoundProof.v
theories/PolicyProof.v
theories/NegProof.v
theories/ConcProof.v
theories/TreeProof.v
theories/PoolProof.v
theories/SeqProof.v
theories/BuildProof.v
theories/BuildSpec.v
theories/TopProof.v
theories/ForestProof.v
theories/AfterProof.v
theories/CutProof.v
theories/IOProof.v
theories/DrawProof.v
theories/SchedProof.v
theories/Concrete.v
theories/RelProof.v
theories/SameProof.v
theories/MoreProof.v
theories/LoadProof.v
theories/AloneProof.v
theories/RngProof.v
theories/AccProof.v
theories/DistProof.v
theories/PreProof.v
theories/VecProof.v
theories/OrderProof.v
theories/WholeProof.v
theories/VisitProof.v
theories/ReloadProof.v
theories/RoomProof.v
theories/CostProof.v
theories/MetricProof.v
theories/SizeProof.v
theories/OwnProof.v
theories/CoverProof.v
theories/QConcProof.v
theories/SliceProof.v
theories/SmallProof.v
theories/PlaneProof.v
theories/PropItems.v
theories/PropSorts.v
theories/PropMisc.v
theories/PropWitness.v
theories/PropState.v
theories/PropSearch.v
theories/PropConc.v
theories/PropForest.v
theories/PropIO.v
theories/PropSame.v
theories/PropShare.v
theories/PropMore.v
theories/PropLoad.v
theories/PropRng.v
theories/PropNum.v
theories/PropVec.v
theories/PropCut.v
theories/PropOrder.v
theories/PropPlane.v
theories/PropQuery.v
theories/PropSlice.v
theories/PropWhole.v
theories/PropReload.v
theories/PropRoom.v
theories/LoadedProof.v
theories/PropLoaded.v
theories/Precision.v
theories/PrecSpec.v
theories/PrecProof.v
theories/PropPrecision.v
theories/PropCost.v
theories/PropMetric.v
theories/PropSize.v
theories/PropReroom.v
theories/PropCover.v
theories/SelfProof.v
theories/PropSelf.v
theories/RPlusProof.v
theories/PropRPlus.v
theories/Dump.v
theories/PropDump.v
theories/PropRun.v
theories/BucketProof.v
theories/PropBucket.v
theories/PropBeyond.v
theories/PropLone.v
theories/ScaleSpec.v
theories/ScaleProof.v
theories/PropScale.v
theories/LoadSpec.v
theories/PropOutcome.v
theories/MirrorSpec.v
theories/MirrorProof.v
theories/PropMirror.v
theories/PropReitem.v
