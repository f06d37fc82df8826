-Q theories Verif
theories/Base.v
theories/SchedModel.v
theories/SchedSpec.v
theories/SchedInv.v
theories/SchedProofs.v
theories/SchedTrace.v
theories/SchedMoves.v
theories/SchedOrder.v
theories/SchedHist.v
theories/SchedFacts.v
theories/SchedProps.v
theories/SchedRefuted.v
theories/Text.v
theories/UuidModel.v
theories/UuidSpec.v
theories/UuidProofs.v
theories/UuidProps.v
theories/StringModel.v
theories/StringSpec.v
theories/StringProofs.v
theories/StringProps.v
theories/Assoc.v
theories/EventModel.v
theories/EventSpec.v
theories/EventProofs.v
theories/EventProps.v
theories/LinkModel.v
theories/LinkSpec.v
theories/LinkProofs.v
theories/LinkProps.v
theories/SimModel.v
theories/SimSpec.v
theories/SimProofs.v
theories/SimProps.v
theories/HelperModel.v
theories/HelperSpec.v
theories/HelperProofs.v
theories/HelperProps.v
theories/PathModel.v
theories/PathSpec.v
theories/PathProofs.v
theories/PathProps.v
theories/CollModel.v
theories/CollSpec.v
theories/CollProofs.v
theories/CollProps.v
theories/SinkModel.v
theories/SinkSpec.v
theories/SinkProofs.v
theories/SinkProps.v
theories/FacModel.v
theories/FacSpec.v
theories/FacProofs.v
theories/FacProps.v
theories/AnyModel.v
theories/AnySpec.v
theories/AnyProofs.v
theories/AnyFloat.v
theories/AnyProps.v
theories/AnyHeapModel.v
theories/AnyHeapSpec.v
theories/AnyHeapProofs.v
theories/AnyHeapProps.v
theories/CmpModel.v
theories/CmpSpec.v
theories/CmpProofs.v
theories/CmpProps.v
theories/PersistModel.v
theories/PersistSpec.v
theories/PersistProofs.v
theories/PersistProps.v
theories/TimeModel.v
theories/TimeSpec.v
theories/TimeProofs.v
theories/TimeProps.v
theories/LogKindModel.v
theories/LogKindProofs.v
theories/LogKindProps.v
theories/LogQueueModel.v
theories/LogQueueProofs.v
theories/LogQueueProps.v
theories/LogTextModel.v
theories/LogTextSpec.v
theories/LogTextProofs.v
theories/LogTextProps.v
theories/FlowModel.v
theories/FlowSpec.v
theories/FlowProofs.v
theories/FlowTreeProofs.v
theories/FlowCopyProofs.v
theories/FlowProps.v
theories/FieldStoreModel.v
theories/FieldStoreSpec.v
theories/FieldStoreProofs.v
theories/FieldStoreProps.v
theories/TypeModel.v
theories/TypeSpec.v
theories/TypeProofs.v
theories/TypeProps.v
theories/ReqModel.v
theories/ReqSpec.v
theories/ReqProofs.v
theories/ReqMarshalProofs.v
theories/ReqInvokeProofs.v
theories/ReqProps.v
theories/SchedStoreModel.v
theories/SchedStoreSpec.v
theories/SchedStoreProofs.v
theories/SchedStoreProps.v
theories/LockModel.v
theories/LockSpec.v
theories/LockProofs.v
theories/LockProps.v
theories/SchedLive.v
theories/SchedLiveProps.v
theories/SchedClock.v
theories/SchedClockProps.v
theories/PyModel.v
theories/PySpec.v
theories/PyProofs.v
theories/PyProps.v
theories/PyCallProofs.v
theories/HostModel.v
theories/HostSpec.v
theories/HostProofs.v
theories/HostProps.v
theories/SimEvents.v
theories/SimEventProps.v
theories/PathItems.v
theories/PathItemProps.v
theories/AnyOtherProps.v
theories/FlowPubProofs.v
theories/ReqNestedProofs.v
theories/FlowLinksProofs.v
theories/UnlinkModel.v
theories/UnlinkSpec.v
theories/UnlinkProofs.v
theories/UnlinkProps.v
theories/PaceModel.v
theories/PaceSpec.v
theories/PaceFloat.v
theories/PaceProofs.v
theories/PaceProps.v
theories/CstrModel.v
theories/CstrSpec.v
theories/CstrProofs.v
theories/CstrProps.v
theories/TimedModel.v
theories/TimedSpec.v
theories/TimedProofs.v
theories/TimedProps.v
theories/DurModel.v
theories/DurSpec.v
theories/DurProofs.v
theories/DurProps.v
theories/PlaceModel.v
theories/PlaceSpec.v
theories/PlaceProofs.v
theories/PlaceProps.v
theories/PubModel.v
theories/PubSpec.v
theories/PubProofs.v
theories/PubProps.v
theories/AnyRound.v
theories/AnyCloseSpec.v
theories/AnyClose.v
theories/AnyBest.v
theories/AnyCloseProps.v
theories/ArithModel.v
theories/ArithSpec.v
theories/ArithProofs.v
theories/ArithProps.v
theories/ArithFloat.v
theories/ConcSpec.v
theories/ConcModel.v
theories/ConcProofs.v
theories/ConcEvent.v
theories/ConcProps.v
theories/ClockSpec.v
theories/ClockModel.v
theories/ClockProofs.v
theories/ClockProps.v
theories/CalSpec.v
theories/CalModel.v
theories/CalProofs.v
theories/CalProps.v
theories/OutSpec.v
theories/OutModel.v
theories/OutProofs.v
theories/OutFloat.v
theories/OutProps.v
theories/ExcModel.v
theories/ExcSpec.v
theories/ExcProofs.v
theories/ExcProps.v
theories/ParModel.v
theories/ParSpec.v
theories/ParProofs.v
theories/ParProps.v
theories/ZulModel.v
theories/ZulSpec.v
theories/ZulProofs.v
theories/ZulProps.v
theories/ArgModel.v
theories/ArgSpec.v
theories/ArgProofs.v
theories/ArgProps.v
theories/FArrModel.v
theories/FArrSpec.v
theories/FArrProofs.v
theories/FArrProps.v
theories/ArrayModel.v
theories/ArraySpec.v
theories/ArrayProofs.v
theories/ArrayProps.v
theories/AppModel.v
theories/AppSpec.v
theories/AppProofs.v
theories/AppProps.v
theories/BrkModel.v
theories/BrkSpec.v
theories/BrkProofs.v
theories/BrkProps.v
theories/DelModel.v
theories/DelSpec.v
theories/DelProofs.v
theories/DelProps.v
theories/FlowHandSpec.v
theories/FlowHandProofs.v
theories/FlowHandProps.v
theories/HintModel.v
theories/HintSpec.v
theories/HintProofs.v
theories/HintProps.v
theories/OwnModel.v
theories/OwnSpec.v
theories/OwnProofs.v
theories/OwnProps.v
theories/AttrModel.v
theories/AttrSpec.v
theories/AttrProofs.v
theories/AttrProps.v
theories/RefPyModel.v
theories/RefPySpec.v
theories/RefPyProofs.v
theories/RefPyProps.v
theories/ArrPyModel.v
theories/ArrPySpec.v
theories/ArrPyProofs.v
theories/ArrPyProps.v
