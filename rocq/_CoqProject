-Q theories Verif
theories/AferoCalls_Proofs.v
theories/AferoCopy_Model.v
theories/AferoCopy_Proofs.v
theories/AferoCopy_Props.v
theories/AferoCopy_Spec.v
theories/AferoErr_Proofs.v
theories/AferoErr_Props.v
theories/AferoErr_Spec.v
theories/AferoFile_Model.v
theories/AferoFile_Proofs.v
theories/AferoFile_Props.v
theories/AferoFile_Spec.v
theories/AferoFinal_Proofs.v
theories/AferoIo_Model.v
theories/AferoIo_Proofs.v
theories/AferoIo_Props.v
theories/AferoIo_Spec.v
theories/AferoMore_Proofs.v
theories/AferoMove_Proofs.v
theories/AferoOps_Proofs.v
theories/AferoRaceApart_Proofs.v
theories/AferoRaceOwn_Proofs.v
theories/AferoRaceWrong_Proofs.v
theories/AferoRace_Model.v
theories/AferoRace_Proofs.v
theories/AferoRace_Props.v
theories/AferoRace_Spec.v
theories/AferoViews_Proofs.v
theories/Afero_Model.v
theories/Afero_Proofs.v
theories/Afero_Props.v
theories/Afero_Spec.v
theories/BufPool_Model.v
theories/BufPool_Proofs.v
theories/BufPool_Props.v
theories/BufPool_Spec.v
theories/ChmodMask_Model.v
theories/ChmodMask_Proofs.v
theories/ChmodMask_Props.v
theories/ChmodMask_Spec.v
theories/Chunk_Model.v
theories/Chunk_Proofs.v
theories/Chunk_Props.v
theories/Chunk_Spec.v
theories/Cleanup_Model.v
theories/Cleanup_Proofs.v
theories/Cleanup_Props.v
theories/Cleanup_Spec.v
theories/Common.v
theories/CommonLemmas.v
theories/ContentRange_Model.v
theories/ContentRange_Proofs.v
theories/ContentRange_Props.v
theories/ContentRange_Spec.v
theories/CopyFs_Model.v
theories/CopyFs_Proofs.v
theories/CopyFs_Props.v
theories/CopyFs_Spec.v
theories/CopyUpRun_Proofs.v
theories/CopyUp_Model.v
theories/CopyUp_Proofs.v
theories/CopyUp_Props.v
theories/CopyUp_Spec.v
theories/Errors_Model.v
theories/Errors_Proofs.v
theories/Errors_Props.v
theories/Errors_Spec.v
theories/FileClient_Model.v
theories/FileClient_Proofs.v
theories/FileClient_Props.v
theories/FileClient_Spec.v
theories/Handles_Model.v
theories/Handles_Proofs.v
theories/Handles_Props.v
theories/Handles_Spec.v
theories/HeadTail_Model.v
theories/HeadTail_Proofs.v
theories/HeadTail_Props.v
theories/HeadTail_Spec.v
theories/HttpLane_Model.v
theories/HttpLane_Proofs.v
theories/HttpLane_Props.v
theories/HttpLane_Spec.v
theories/HttpPin_Model.v
theories/HttpPin_Proofs.v
theories/HttpPin_Props.v
theories/HttpPin_Spec.v
theories/HttpRange_Model.v
theories/HttpRange_Proofs.v
theories/HttpRange_Props.v
theories/HttpRange_Spec.v
theories/HttpWire_Model.v
theories/HttpWire_Proofs.v
theories/HttpWire_Props.v
theories/HttpWire_Spec.v
theories/IoBridge_Model.v
theories/IoBridge_Proofs.v
theories/IoBridge_Props.v
theories/IoBridge_Spec.v
theories/Locks_Model.v
theories/Locks_Proofs.v
theories/Locks_Props.v
theories/Locks_Spec.v
theories/MasksPaths_Proofs.v
theories/Masks_Model.v
theories/Masks_Proofs.v
theories/Masks_Props.v
theories/Masks_Spec.v
theories/MemBuf_Model.v
theories/MemBuf_Proofs.v
theories/MemBuf_Props.v
theories/MemBuf_Spec.v
theories/MemRace_Model.v
theories/MemRace_Proofs.v
theories/MemRace_Props.v
theories/MemRace_Spec.v
theories/MultiRead_Model.v
theories/MultiRead_Proofs.v
theories/MultiRead_Props.v
theories/MultiRead_Spec.v
theories/MultiStream_Model.v
theories/MultiStream_Proofs.v
theories/MultiStream_Props.v
theories/MultiStream_Spec.v
theories/Nest_Model.v
theories/Nest_Proofs.v
theories/Nest_Props.v
theories/Nest_Spec.v
theories/OsFs_Model.v
theories/OsFs_Proofs.v
theories/OsFs_Props.v
theories/OsFs_Spec.v
theories/OverlayCalls_Proofs.v
theories/OverlayErr_Proofs.v
theories/OverlayErr_Props.v
theories/OverlayErr_Spec.v
theories/OverlayGrow_Proofs.v
theories/OverlayNew_Proofs.v
theories/OverlayOps_Proofs.v
theories/OverlayOps_Props.v
theories/OverlayPlain_Proofs.v
theories/OverlayPlain_Props.v
theories/OverlayPlain_Spec.v
theories/OverlayRename_Proofs.v
theories/OverlayRootSub_Proofs.v
theories/OverlayRootTree_Proofs.v
theories/OverlayRoot_Model.v
theories/OverlayRoot_Proofs.v
theories/OverlayRoot_Props.v
theories/OverlayRoot_Spec.v
theories/OverlayWorks_Proofs.v
theories/Overlay_Model.v
theories/Overlay_Proofs.v
theories/Overlay_Props.v
theories/Overlay_Spec.v
theories/Paging_Model.v
theories/Paging_Proofs.v
theories/Paging_Props.v
theories/Paging_Spec.v
theories/PathLex_Model.v
theories/PathLex_Proofs.v
theories/Redact_Model.v
theories/Redact_Proofs.v
theories/Redact_Props.v
theories/Redact_Spec.v
theories/Resolve_Complete.v
theories/Resolve_Kernel.v
theories/Resolve_Model.v
theories/Resolve_Proofs.v
theories/Resolve_Props.v
theories/Resolve_Spec.v
theories/Resume_Model.v
theories/Resume_Proofs.v
theories/Resume_Props.v
theories/Resume_Spec.v
theories/RoViews_Model.v
theories/RoViews_Proofs.v
theories/RoViews_Props.v
theories/RoViews_Spec.v
theories/SafeWrite_Model.v
theories/SafeWrite_Proofs.v
theories/SafeWrite_Props.v
theories/SafeWrite_Spec.v
theories/SeqRead_Model.v
theories/SeqRead_Proofs.v
theories/SeqRead_Props.v
theories/SeqRead_Spec.v
theories/SetupLines_Model.v
theories/SetupLines_Proofs.v
theories/SetupLines_Props.v
theories/SetupLines_Spec.v
theories/SetupMeta_Model.v
theories/SetupMeta_Proofs.v
theories/SetupMeta_Props.v
theories/SetupMeta_Spec.v
theories/SftpCalls_Proofs.v
theories/SftpErr_Model.v
theories/SftpErr_Proofs.v
theories/SftpErr_Props.v
theories/SftpErr_Spec.v
theories/SftpRemove_Proofs.v
theories/Sftp_Model.v
theories/Sftp_Proofs.v
theories/Sftp_Props.v
theories/Sftp_Spec.v
theories/SqlFile_Model.v
theories/SqlFile_Proofs.v
theories/SqlFile_Props.v
theories/SqlFile_Spec.v
theories/SqlVfs_Model.v
theories/SqlVfs_Proofs.v
theories/SqlVfs_Props.v
theories/SqlVfs_Spec.v
theories/Stack_Model.v
theories/Stack_Proofs.v
theories/Stack_Props.v
theories/Stack_Spec.v
theories/StreamMisc_Model.v
theories/StreamMisc_Proofs.v
theories/StreamMisc_Props.v
theories/StreamMisc_Spec.v
theories/StreamTree_Model.v
theories/StreamTree_Proofs.v
theories/StreamTree_Props.v
theories/StreamTree_Spec.v
theories/SynthAdd_Proofs.v
theories/SynthAdd_Props.v
theories/SynthData_Model.v
theories/SynthData_Proofs.v
theories/SynthData_Props.v
theories/SynthData_Spec.v
theories/SynthEffect_Proofs.v
theories/SynthErr_Proofs.v
theories/SynthErr_Props.v
theories/SynthErr_Spec.v
theories/SynthHandles_Model.v
theories/SynthHandles_Proofs.v
theories/SynthHandles_Props.v
theories/SynthHandles_Spec.v
theories/SynthPath_Proofs.v
theories/SynthPlain_Proofs.v
theories/SynthPlain_Props.v
theories/SynthPlain_Spec.v
theories/SynthTree_Proofs.v
theories/SynthView_Proofs.v
theories/SynthView_Props.v
theories/Synth_Model.v
theories/Synth_Proofs.v
theories/Synth_Props.v
theories/Synth_Spec.v
theories/TarExtract_Proofs.v
theories/TarExtract_Props.v
theories/TarExtract_Spec.v
theories/TarFs_Model.v
theories/TarFs_Proofs.v
theories/TarFs_Props.v
theories/TarFs_Spec.v
theories/TarNumExact_Proofs.v
theories/TarNum_Model.v
theories/TarNum_Proofs.v
theories/TarNum_Props.v
theories/TarNum_Spec.v
theories/TarSections_Model.v
theories/TarSections_Proofs.v
theories/TarSections_Props.v
theories/TarSections_Spec.v
theories/TarSparse_Model.v
theories/TarSparse_Proofs.v
theories/TarSparse_Props.v
theories/TarSparse_Spec.v
theories/TempName_Model.v
theories/TempName_Proofs.v
theories/TempName_Props.v
theories/TempName_Spec.v
theories/TestCtx_Model.v
theories/TestCtx_Proofs.v
theories/TestCtx_Props.v
theories/TestCtx_Spec.v
theories/TestErr_Model.v
theories/TestErr_Proofs.v
theories/TestErr_Props.v
theories/TestErr_Spec.v
theories/Transfer_Model.v
theories/Transfer_Proofs.v
theories/Transfer_Props.v
theories/Transfer_Spec.v
theories/Utf8_Model.v
theories/Utf8_Proofs.v
theories/Utf8_Props.v
theories/Utf8_Spec.v
theories/Views_Model.v
theories/Views_Proofs.v
theories/Views_Props.v
theories/Views_Spec.v
theories/Walk_Model.v
theories/Walk_Proofs.v
theories/Walk_Props.v
theories/Walk_Spec.v
theories/Wrap_Model.v
theories/Wrap_Proofs.v
theories/Wrap_Props.v
theories/Wrap_Spec.v
