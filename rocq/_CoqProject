-Q theories Verif
theories/Base.v
theories/PmtNibblesModel.v
theories/RlpModel.v
theories/PmtModel.v
theories/PmtNibblesProof.v
theories/RlpProof.v
theories/PmtSpec.v
theories/PmtEncProof.v
theories/PmtLookupProof.v
theories/PmtOpsProof.v
theories/PmtDeleteProof.v
theories/PmtRunSpec.v
theories/PmtCommitProof.v
theories/PmtRunProof.v
theories/PmtStepProof.v
theories/PmtProofProof.v
theories/PmtIterProof.v
theories/KeccakModel.v
theories/Sha256Model.v
theories/PmtCodecSpec.v
theories/PmtCodecProof.v
theories/PmtYellowSpec.v
theories/PmtYellowProof.v
theories/PmtPropProof.v
theories/PmtExamples.v
theories/PmtProps.v
theories/PmtMidProps.v
theories/PmtLossProps.v
theories/JmtNibModel.v
theories/JmtSpec.v
theories/JmtNibProof.v
theories/JmtModel.v
theories/JmtHashProof.v
theories/JmtAbsProof.v
theories/JmtCacheProof.v
theories/JmtInsertProof.v
theories/JmtPutProof.v
theories/JmtHistProof.v
theories/JmtRunSpec.v
theories/JmtValueProof.v
theories/JmtRunProof.v
theories/JmtReadProof.v
theories/JmtTraceSpec.v
theories/JmtProofProof.v
theories/JmtMoreProof.v
theories/JmtPathModel.v
theories/JmtChildrenModel.v
theories/JmtNibSpec.v
theories/JmtNibMoreProof.v
theories/JmtNibRangeProof.v
theories/JmtIterModel.v
theories/JmtOrderProof.v
theories/JmtIterProof.v
theories/JmtIterSpec.v
theories/JmtExamples.v
theories/JmtPropProof.v
theories/JmtProps.v
theories/JmtIterProps.v
theories/JmtNibProps.v
theories/JmtRestoreModel.v
theories/JmtRestoreSpec.v
theories/JmtRestoreRunSpec.v
theories/JmtRestoreProof.v
theories/JmtRestoreAddProof.v
theories/JmtRestoreVerifyProof.v
theories/JmtRestoreCheckProof.v
theories/JmtRestoreRunProof.v
theories/JmtRestoreFinishProof.v
theories/JmtRestorePropProof.v
theories/JmtRestoreProps.v
theories/JmtExclModel.v
theories/JmtExclSpec.v
theories/JmtExclProof.v
theories/JmtExclProps.v
theories/JmtBatchModel.v
theories/JmtBatchListProof.v
theories/JmtBatchProof.v
theories/JmtBatchRunProof.v
theories/JmtBatchProps.v
theories/JmtBatchCacheProps.v
theories/JmtPurgeProof.v
theories/JmtPurgeProps.v
theories/JmtPurgeIterProps.v
theories/JmtTrieModel.v
theories/JmtTrieProps.v
theories/JmtPurgeProofProps.v
theories/JmtRecoverProof.v
theories/JmtRecoverSpec.v
theories/JmtRecoverRunProof.v
theories/JmtAncestorProof.v
theories/JmtRecoverProps.v
theories/JmtIcsSpec.v
theories/JmtIcsModel.v
theories/JmtIcsProof.v
theories/JmtIcsSoundProof.v
theories/JmtIcsProps.v
theories/JmtWriteModel.v
theories/JmtWriteProof.v
theories/JmtWriteProps.v
theories/PmtFailModel.v
theories/PmtFailProps.v
theories/JmtLiveModel.v
theories/JmtLiveProps.v
theories/JmtBorshModel.v
theories/JmtBorshSpec.v
theories/JmtBorshProof.v
theories/JmtBorshProps.v
theories/JmtRestoreFailModel.v
theories/JmtRestoreFailSpec.v
theories/JmtRestoreFailProof.v
theories/JmtRestoreFailProps.v
theories/PmtSerdeModel.v
theories/PmtSerdeSpec.v
theories/PmtSerdeProof.v
theories/PmtSerdeProps.v
theories/PmtFailLightProps.v
theories/JmtKeyModel.v
theories/JmtKeySpec.v
theories/JmtKeyProps.v
theories/PmtListModel.v
theories/PmtListProps.v
theories/JmtMockModel.v
theories/JmtMockProps.v
theories/PmtCloneModel.v
theories/PmtCloneProps.v
theories/PmtThreadsModel.v
theories/PmtThreadsProps.v
theories/PmtMomentsModel.v
theories/PmtMomentsProps.v
theories/JmtSizeProps.v
theories/JmtLayoutProps.v
