-Q theories Verif
theories/Base.v
theories/Murmur.v
theories/Iblt.v
theories/BaseFacts.v
theories/MurmurFacts.v
theories/SpecMurmur.v
theories/MurmurRef.v
theories/IbltFacts.v
theories/PeelFacts.v
theories/SpecIblt.v
theories/HonestFacts.v
theories/IbltProps.v
theories/Tlv.v
theories/State.v
theories/NMap.v
theories/TlvFacts.v
theories/NMapFacts.v
theories/Codec.v
theories/CodecFacts.v
theories/Properties_Iblt.v
theories/SpecTlv.v
theories/StateFacts.v
theories/Properties_State.v
theories/Bloom.v
theories/SpecBloom.v
theories/BloomFacts.v
theories/BloomParams.v
theories/Properties_Bloom.v
theories/Properties_BloomParams.v
theories/Store.v
theories/StoreFacts.v
theories/SpecStore.v
theories/Properties_Store.v
theories/Producer.v
theories/SpecProducer.v
theories/ProducerFacts.v
theories/Properties_Producer.v
theories/Properties_Hash.v
theories/Mon.v
theories/MonFacts.v
theories/Partial.v
theories/SpecPartial.v
theories/PartialFacts.v
theories/PartialSteps.v
theories/Properties_Partial.v
theories/PartialAnswers.v
theories/Properties_PartialAnswers.v
theories/Full.v
theories/FullTrace.v
theories/SpecFull.v
theories/FullFacts.v
theories/FullSafe.v
theories/FullSteps.v
theories/FullData.v
theories/FullRuns.v
theories/FullTimers.v
theories/FullWaiting.v
theories/FullSends.v
theories/FullReplies.v
theories/FullAnswers.v
theories/FullPending.v
theories/FullAsk.v
theories/FullRenew.v
theories/Properties_Full.v
theories/Properties_FullTime.v
theories/Properties_FullAnswers.v
theories/Properties_Asks.v
theories/Consumer.v
theories/SpecConsumer.v
theories/ConsumerFacts.v
theories/ConsumerLive.v
theories/ConsumerReplies.v
theories/Properties_Consumer.v
theories/Properties_ConsumerLive.v
theories/Properties_ConsumerReplies.v
theories/SpecExchange.v
theories/ExchangeFacts.v
theories/Properties_Exchange.v
theories/SpecGroup.v
theories/GroupFacts.v
theories/Properties_Group.v
theories/SpecPair.v
theories/PairProducer.v
theories/PairConsumer.v
theories/PairFacts.v
theories/PairProgress.v
theories/Properties_Pair.v
theories/Properties_PairProgress.v
theories/Properties_Refuse.v
theories/Properties_Reports.v
theories/Properties_Restart.v
theories/Apps.v
theories/AppFacts.v
theories/Properties_Apps.v
theories/SpecFresh.v
theories/FreshFacts.v
theories/PartialFresh.v
theories/FullFresh.v
theories/FullFace.v
theories/Properties_Fresh.v
theories/FullGone.v
theories/Properties_Steady.v
theories/Properties_Waits.v
theories/FlowFacts.v
theories/FullFlow.v
theories/Properties_Flow.v
theories/Properties_Exact.v
theories/Life.v
theories/Properties_Life.v
theories/FullLog.v
theories/SpecDeliver.v
theories/DeliverFacts.v
theories/Properties_Deliver.v
theories/SpecWire.v
theories/WireFacts.v
theories/Properties_Wire.v
theories/SpecNet.v
theories/NetFacts.v
theories/Properties_Net.v
theories/SpecSize.v
theories/SizeFacts.v
theories/Properties_Size.v
theories/SpecFlood.v
theories/FloodFacts.v
theories/Properties_Flood.v
theories/SpecUnread.v
theories/Properties_Unread.v
theories/Throwing.v
theories/SpecThrow.v
theories/ThrowFacts.v
theories/Properties_Throw.v
theories/SpecForget.v
theories/ForgetFacts.v
theories/Properties_Forget.v
theories/SpecRecent.v
theories/RecentFacts.v
theories/Properties_Recent.v
theories/Properties_Ends.v
theories/SpecSettle.v
theories/Properties_Settle.v
theories/Properties_Push.v
theories/SpecStored.v
theories/StoredFacts.v
theories/Properties_Stored.v
theories/SpecOrder.v
theories/OrderFacts.v
theories/OrderConsumer.v
theories/Properties_Order.v
theories/SpecBloomFull.v
theories/BloomFull.v
theories/Properties_BloomFull.v
theories/Print.v
theories/PrintFacts.v
theories/Properties_Print.v
theories/SpecCircle.v
theories/CircleFacts.v
theories/Properties_Circle.v
theories/SpecAlike.v
theories/AlikeFacts.v
theories/Properties_Alike.v
theories/SpecNames.v
theories/NamesFacts.v
theories/Properties_Names.v
theories/Options.v
theories/Properties_Options.v
theories/SpecQuiet.v
theories/QuietFacts.v
theories/Properties_Quiet.v
theories/SpecTimely.v
theories/TimelyFacts.v
theories/Properties_Timely.v
theories/SpecOnce.v
theories/Properties_Once.v
theories/SpecStory.v
theories/Properties_Story.v
theories/SpecCauses.v
theories/Properties_Causes.v
theories/SpecTold.v
theories/Properties_Told.v
theories/SpecWake.v
theories/Properties_Wake.v
theories/Destroy.v
theories/SpecDestroy.v
theories/Properties_Destroy.v
theories/AvailFacts.v
theories/SpecAvail.v
theories/Properties_Avail.v
theories/SpecSnap.v
theories/SnapFacts.v
theories/Properties_Snap.v
theories/SpecCanon.v
theories/CanonFacts.v
theories/Properties_Canon.v
theories/Properties_Sharp.v
theories/Properties_Silent.v
theories/Properties_Sharper.v
theories/Properties_Lost.v
theories/Properties_Empty.v
theories/Properties_Reported.v
theories/Properties_Owed.v
theories/Properties_Amplify.v
theories/Properties_Revive.v
theories/Properties_Late.v
theories/Properties_Stuck.v
