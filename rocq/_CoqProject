-Q theories Verif
theories/Base.v
theories/SlotModel.v
theories/SlotWord.v
theories/EventModel.v
theories/EventInv.v
theories/EventProofs.v
theories/EventStep.v
theories/EventCons.v
theories/EventReach.v
theories/EventSpec.v
theories/EventProps.v
theories/SlotProofs.v
theories/SlotProps.v
theories/HistModel.v
theories/HistProofs.v
theories/HistProps.v
theories/CompositeModel.v
theories/CompositeProofs.v
theories/CompositeAgree.v
theories/CompositeProps.v
theories/SubModel.v
theories/SubProofs.v
theories/SubProps.v
theories/ProxyModel.v
theories/ProxySpec.v
theories/ProxyProofs.v
theories/ProxyProps.v
theories/LogSetModel.v
theories/LogSetProofs.v
theories/LogSetProps.v
theories/ProviderModel.v
theories/ProviderProofs.v
theories/ProviderProps.v
theories/RegionModel.v
theories/RegionProps.v
theories/OffsetPtrModel.v
theories/OffsetPtrProps.v
theories/RegionVerModel.v
theories/RegionVerProps.v
theories/AllocModel.v
theories/AllocProps.v
theories/TrackerModel.v
theories/TrackerProps.v
theories/PidMapModel.v
theories/PidMapProps.v
theories/MapModel.v
theories/MapProps.v
theories/GwCodecModel.v
theories/GwCodecProofs.v
theories/GwFramerModel.v
theories/GwProps.v
theories/GwReqModel.v
theories/GwReqProps.v
theories/GwAppModel.v
theories/GwAppProps.v
theories/MpClientModel.v
theories/MpClientProofs.v
theories/MpClientOrder.v
theories/MpClientProps.v
theories/TimedQueueModel.v
theories/TimedQueueProps.v
theories/MpFrameModel.v
theories/MpFrameProps.v
theories/NamesModel.v
theories/NamesProps.v
theories/ErrorCodeModel.v
theories/ErrorCodeProps.v
theories/AccessModel.v
theories/AccessProps.v
theories/NotifyModel.v
theories/NotifyProps.v
theories/ShmLifeModel.v
theories/ShmLifeProps.v
theories/ShmOpenModel.v
theories/ShmOpenProps.v
theories/MethodModel.v
theories/MethodProps.v
theories/SdModel.v
theories/SdProofs.v
theories/SdInv.v
theories/SdInv1.v
theories/SdInv2.v
theories/SdLog.v
theories/SdSettle.v
theories/SdProps.v
theories/GwRetryProps.v
theories/RemoteRegModel.v
theories/RemoteRegProps.v
theories/EventAlone.v
theories/EventAloneProps.v
theories/SubAloneProps.v
theories/CompositeDropProps.v
theories/LogSetRegProps.v
theories/ProxyCountProps.v
theories/MsgModel.v
theories/MsgProps.v
theories/RestartModel.v
theories/RestartProps.v
theories/CacheModel.v
theories/CacheProps.v
theories/OfferModel.v
theories/OfferProps.v
theories/TraceModel.v
theories/TraceProps.v
theories/OfferAgainProps.v
theories/DeplModel.v
theories/ConfModel.v
theories/DeplProofs.v
theories/IdentProps.v
theories/IdentOrderProps.v
theories/TraceOff.v
theories/ConfProps.v
theories/FilterModel.v
theories/FilterSpec.v
theories/FilterProofs.v
theories/FilterProps.v
theories/DeplProps.v
theories/ParseModel.v
theories/ParseSpec.v
theories/ParseProofs.v
theories/ParseProps.v
theories/ArgModel.v
theories/ArgSpec.v
theories/ArgProofs.v
theories/ArgProps.v
theories/PtrModel.v
theories/PtrSpec.v
theories/PtrProofs.v
theories/PtrProps.v
theories/SizeModel.v
theories/SizeProps.v
theories/LayoutModel.v
theories/LayoutProps.v
theories/MoveModel.v
theories/MoveSpec.v
theories/MoveProof.v
theories/MoveProps.v
theories/ServModel.v
theories/ServSpec.v
theories/ServProof.v
theories/ServInv.v
theories/ServStep.v
theories/ServSafe.v
theories/ServProps.v
theories/FieldModel.v
theories/FieldSpec.v
theories/FieldProof.v
theories/FieldAns.v
theories/FieldGet.v
theories/FieldLin.v
theories/FieldProps.v
theories/FactModel.v
theories/FactSpec.v
theories/FactProof.v
theories/FactInv.v
theories/FactOrd.v
theories/FactLink.v
theories/FactProps.v
theories/FrontModel.v
theories/FrontSpec.v
theories/FrontProof.v
theories/FrontInv.v
theories/FrontLife.v
theories/FrontProps.v
theories/PxModel.v
theories/PxSpec.v
theories/PxProof.v
theories/PxProps.v
theories/QxModel.v
theories/QxSpec.v
theories/QxProof.v
theories/QxProps.v
theories/RxModel.v
theories/RxSpec.v
theories/RxProof.v
theories/RxProps.v
theories/DxModel.v
theories/DxSpec.v
theories/DxProof.v
theories/DxProps.v
theories/QtModel.v
theories/QtSpec.v
theories/QtProof.v
theories/QtProps.v
theories/FutModel.v
theories/FutSpec.v
theories/FutProof.v
theories/FutProps.v
theories/GuardModel.v
theories/GuardSpec.v
theories/GuardProof.v
theories/GuardProps.v
theories/HandleModel.v
theories/HandleSpec.v
theories/HandleProof.v
theories/HandleProps.v
