{"id": "C01", "title": "Exclusive slot ownership", "statement": "A sample slot handed out by Allocate() is never handed out a second time before it is sent or discarded, and is never a slot on which any consumer holds a SamplePtr; conversely a consumer never obtains a SamplePtr to a slot a provider is currently writing.", "quantifier": "every interleaving of the atomic accesses of the provider thread (single-threaded per its documented assumption of use) and any number of consumers, any number of slots, any crash of a consumer", "why_tests_cant": "the property is about racing compare-exchange loops; tests sample a handful of schedules", "anchors": ["score/mw/com/impl/bindings/lola/provider_event_data_control_local_view.cpp:AllocateNextSlot,TryAllocateSlot,EventReady,Discard", "score/mw/com/impl/bindings/lola/consumer_event_data_control_local_view.cpp:ReferenceNextEvent,DereferenceEvent", "score/mw/com/impl/bindings/lola/event_slot_status.cpp"]}
{"id": "C02", "title": "Sample stability", "statement": "The data a consumer reads through a SamplePtr is exactly the value the provider published for that sample, for as long as the SamplePtr lives, whatever the provider and the other consumers do meanwhile.", "quantifier": "every interleaving, every point of the SamplePtr's lifetime", "why_tests_cant": "absence of a torn or overwritten read cannot be established by running some schedules", "anchors": ["score/mw/com/impl/bindings/lola/skeleton_event.h:Send", "score/mw/com/impl/bindings/lola/sample_ptr.h", "score/mw/com/impl/bindings/lola/consumer_event_data_control_local_view.cpp", "score/mw/com/impl/bindings/lola/provider_event_data_control_local_view.cpp"]}
{"id": "C03", "title": "Reference counts are exact", "statement": "At every moment the reference count stored for a published sample equals the number of references consumers hold on it; in particular when all SamplePtrs to it are destroyed the slot is reusable again, and the count never leaks into the sequence number.", "quantifier": "every interleaving of references and releases by any number (< 2^32-1) of consumers", "why_tests_cant": "lost updates depend on the schedule", "anchors": ["score/mw/com/impl/bindings/lola/consumer_event_data_control_local_view.cpp:ReferenceNextEvent,ReferenceSpecificEvent,DereferenceEvent", "score/mw/com/impl/bindings/lola/event_slot_status.cpp:GetReferenceCount,SetReferenceCount"]}
{"id": "C04", "title": "Ordered, duplicate-free delivery", "statement": "Over the whole life of a subscription the samples handed to the receiver have strictly increasing publication order: oldest first inside one GetNewSamples call, and never a sample at or before one already delivered.", "quantifier": "every interleaving of a consumer's GetNewSamples calls with providers and other consumers, every maximum count", "why_tests_cant": "needs an invariant over all histories", "anchors": ["score/mw/com/impl/bindings/lola/slot_collector.cpp:GetNewSamplesSlotIndices,CollectSlots", "score/mw/com/impl/bindings/lola/consumer_event_data_control_local_view.cpp:ReferenceNextEvent"]}
{"id": "C05", "title": "Only published samples are delivered", "statement": "Every sample delivered to a consumer was published by Send with exactly the sequence number under which it is delivered; slots that are being written, were discarded or were never used are never delivered.", "quantifier": "every interleaving and every history of Allocate/Send/Discard", "why_tests_cant": "schedules are unbounded", "anchors": ["score/mw/com/impl/bindings/lola/consumer_event_data_control_local_view.cpp:ReferenceNextEvent", "score/mw/com/impl/bindings/lola/event_slot_status.cpp:IsTimeStampBetween,IsInvalid,IsInWriting"]}
{"id": "C06", "title": "GetNewSamples returns the newest unseen samples", "statement": "When the provider is quiet during the call, GetNewSamples(n) delivers exactly the min(n, free sample count, k) newest of the k unseen samples, in publication order, and GetNumNewSamplesAvailable returned k.", "quantifier": "every slot array content, every last-seen sequence number, every n", "why_tests_cant": "all array contents and counts", "anchors": ["score/mw/com/impl/bindings/lola/slot_collector.cpp", "score/mw/com/impl/bindings/lola/consumer_event_data_control_local_view.cpp:GetNumNewEvents,ReferenceNextEvent"]}
{"id": "C07", "title": "Allocation reuses the oldest free slot", "statement": "When nobody interferes, Allocate succeeds whenever some slot is neither referenced nor being written; it picks a never-used slot if there is one and otherwise the free slot holding the oldest sample, and touches no other slot.", "quantifier": "every slot array content", "why_tests_cant": "all array contents", "anchors": ["score/mw/com/impl/bindings/lola/provider_event_data_control_local_view.cpp:FindOldestUnusedSlot,AllocateNextSlot"]}
{"id": "C08", "title": "History depth", "statement": "With N slots and no consumer holding samples, after any number k of Send calls the samples available to a fresh subscriber are exactly the newest min(k,N) ones, in order; with unsent samples in between the event behaves like a bounded queue: Send appends, an Allocate that finds no free slot drops the oldest sample, destroying an unsent sample frees its slot.", "quantifier": "every N, every number of sends, every sequence of interleaved discards", "why_tests_cant": "unbounded histories", "anchors": ["score/mw/com/impl/bindings/lola/provider_event_data_control_local_view.cpp", "score/mw/com/impl/bindings/lola/skeleton_event_common.h:Send", "score/mw/com/impl/bindings/lola/slot_collector.cpp"]}
{"id": "C09", "title": "Provider restart keeps published samples and order (single quality)", "statement": "If the provider process dies at any point and the service is re-offered on the same shared memory, slots under construction become free, every published sample and every consumer reference is kept, and all samples sent after the restart are newer than all samples sent before.", "quantifier": "every crash point of the provider, every consumer schedule", "why_tests_cant": "crash points between single atomic accesses cannot be hit reliably", "anchors": ["score/mw/com/impl/bindings/lola/skeleton_memory_manager.cpp:CleanupSharedMemoryAfterCrash", "score/mw/com/impl/bindings/lola/provider_event_data_control_local_view.cpp:RemoveAllocationsForWriting", "score/mw/com/impl/bindings/lola/skeleton_event_common.h:PrepareOfferCommon", "score/mw/com/impl/bindings/lola/event_data_control_composite.cpp:GetLatestTimestamp"]}
{"id": "C10", "title": "Provider restart of an ASIL-B/QM event", "statement": "After a provider crash at any point and re-offer on the same memory, an event that serves both ASIL-B and QM consumers can allocate again (the provider is not terminated by its own consistency assertion).", "quantifier": "every crash point", "why_tests_cant": "crash points between single atomic accesses", "anchors": ["score/mw/com/impl/bindings/lola/event_data_control_composite.cpp:GetNextFreeMultiSlot,AllocateNextMultiSlot,EventReady", "score/mw/com/impl/bindings/lola/skeleton_memory_manager.cpp:CleanupSharedMemoryAfterCrash"]}
{"id": "C11", "title": "QM consumers cannot disturb ASIL-B consumers", "statement": "Whatever a QM process writes into the QM control memory, the ASIL-B control keeps its guarantees: no ASIL-B slot being read is overwritten, and once QM misbehaviour was detected allocation depends on the ASIL-B control only.", "quantifier": "every content of the QM control memory at every access, every schedule", "why_tests_cant": "an adversarial neighbour has unboundedly many behaviours", "anchors": ["score/mw/com/impl/bindings/lola/event_data_control_composite.cpp:AllocateNextSlot,EventReady,Discard", "score/mw/com/impl/bindings/lola/skeleton_event_common.h:AllocateSlot"]}
{"id": "C12", "title": "Consumer crash rollback is exact", "statement": "If a consumer dies at any point and its proxy is recreated, either recreation reports an error, or afterwards exactly the references it held are released: the reference counts equal the references of the surviving consumers.", "quantifier": "every crash point of the consumer, every state of the other consumers", "why_tests_cant": "crash points between single atomic accesses", "anchors": ["score/mw/com/impl/bindings/lola/transaction_log_local_view.cpp:RollbackProxyElementLog", "score/mw/com/impl/bindings/lola/transaction_log_set.cpp:RollbackProxyTransactions", "score/mw/com/impl/bindings/lola/transaction_log_rollback_executor.cpp"]}
{"id": "C13", "title": "Rollback covers every log of the application", "statement": "RollbackProxyTransactions(id) rolls back all transaction logs that belong to id and need a rollback.", "quantifier": "every number of logs and every log content", "why_tests_cant": "combinations of logs are unbounded", "anchors": ["score/mw/com/impl/bindings/lola/transaction_log_set.cpp:RollbackProxyTransactions", "score/mw/com/impl/bindings/lola/transaction_log_set.h"]}
{"id": "C14", "title": "Subscription limits", "statement": "At every moment the number of subscribers is at most the configured maximum and, if enforced, the sum of the sample counts of all subscribers is at most the number of slots; the counters always equal the sums over the currently subscribed consumers. A Subscribe call within the limits succeeds; one beyond them is refused with the documented error and changes nothing.", "quantifier": "every interleaving of Subscribe and Unsubscribe by any number of consumers", "why_tests_cant": "racing compare-exchange loops", "anchors": ["score/mw/com/impl/bindings/lola/event_subscription_control.cpp:Subscribe,Unsubscribe"]}
{"id": "C15", "title": "Unsubscribe gives back exactly what Subscribe took", "statement": "Every Subscribe/Unsubscribe history leaves the counters at their initial value once all subscribers are gone, and no legal history makes Unsubscribe terminate the process.", "quantifier": "all histories of successful and failed Subscribe and matching Unsubscribe calls", "why_tests_cant": "unbounded histories", "anchors": ["score/mw/com/impl/bindings/lola/event_subscription_control.cpp", "score/mw/com/impl/bindings/lola/subscription_not_subscribed_states.cpp", "score/mw/com/impl/bindings/lola/subscription_subscribed_states.cpp"]}
{"id": "C16", "title": "Subscription state machine", "statement": "Subscribe, Unsubscribe, stop-offer and re-offer drive the subscription through NotSubscribed, Subscribed and SubscriptionPending as documented; samples are only delivered while subscribed, a subscription survives a provider restart, and the reported state is a function of the history of calls.", "quantifier": "every history of API calls and provider availability changes", "why_tests_cant": "unbounded histories", "anchors": ["score/mw/com/impl/bindings/lola/subscription_state_machine.cpp", "score/mw/com/impl/bindings/lola/subscription_not_subscribed_states.cpp", "score/mw/com/impl/bindings/lola/subscription_subscription_pending_states.cpp", "score/mw/com/impl/bindings/lola/subscription_subscribed_states.cpp"]}
{"id": "C17", "title": "A removed receive handler is not called again", "statement": "After UnsetReceiveHandler returned, no receive handler stays registered for the event, also if the provider restarts.", "quantifier": "every history of SetReceiveHandler/UnsetReceiveHandler/Subscribe/Unsubscribe/stop-offer/re-offer", "why_tests_cant": "unbounded histories", "anchors": ["score/mw/com/impl/bindings/lola/subscription_subscription_pending_states.cpp:UnsetReceiveHandler,ReOfferEvent", "score/mw/com/impl/bindings/lola/subscription_helpers.cpp"]}
{"id": "C18", "title": "Subscribe rejects or accepts, never aborts", "statement": "Subscribe(n) either succeeds or returns an error for every n the interface accepts.", "quantifier": "every sample count 0..255 and every slot configuration", "why_tests_cant": "all counts", "anchors": ["score/mw/com/impl/bindings/lola/subscription_not_subscribed_states.cpp:SubscribeEvent", "score/mw/com/impl/bindings/lola/slot_collector.cpp:SlotCollector", "score/mw/com/impl/bindings/lola/proxy_event_common.cpp"]}
{"id": "C19", "title": "Sample bookkeeping never aborts a consumer", "statement": "A proxy event that references and releases samples through GetNewSamples and SamplePtr destruction never violates a transaction-log precondition, i.e. bookkeeping does not terminate the process.", "quantifier": "every interleaving with providers and other consumers, every sample count", "why_tests_cant": "schedules and histories are unbounded", "anchors": ["score/mw/com/impl/bindings/lola/transaction_log_local_view.cpp:ReferenceTransactionBegin,ReferenceTransactionCommit,DereferenceTransactionBegin,DereferenceTransactionCommit", "score/mw/com/impl/bindings/lola/slot_collector.cpp"]}
{"id": "C20", "title": "Field getter and tracing coexist", "statement": "Reading the latest value through a field getter never aborts the provider while a sample is still in use by tracing.", "quantifier": "every order of trace and get operations", "why_tests_cant": "order-dependent", "anchors": ["score/mw/com/impl/bindings/lola/skeleton_event.h:GetLatestSample", "score/mw/com/impl/tracing/skeleton_event_tracing.h:CreateTypeErasedSamplePtr", "score/mw/com/impl/bindings/lola/transaction_log_local_view.cpp:ReferenceTransactionBegin"]}
{"id": "C21", "title": "Unlimited number of sends", "statement": "Any number of samples can be sent: the event keeps delivering new samples in order.", "quantifier": "every number of sends (sequence numbers are 32 bit)", "why_tests_cant": "2^32 sends are out of reach of tests", "anchors": ["score/mw/com/impl/bindings/lola/skeleton_event_common.h:Send", "score/mw/com/impl/bindings/lola/event_slot_status.h:EventTimeStamp", "score/mw/com/impl/bindings/lola/provider_event_data_control_local_view.cpp:FindOldestUnusedSlot"]}
{"id": "C22", "title": "Sample count limit per subscription", "statement": "At every moment the number of SamplePtrs a subscriber holds plus the reserved ones is at most the count it subscribed with; GetFreeSampleCount is that limit minus the samples in use, and every released SamplePtr frees exactly one.", "quantifier": "every interleaving of GetNewSamples, SamplePtr moves and destructions on any number of threads", "why_tests_cant": "racing compare-exchange loops, unbounded histories", "anchors": ["score/mw/com/impl/sample_reference_tracker.cpp", "score/mw/com/impl/proxy_event.h:GetNewSamples", "score/mw/com/impl/bindings/lola/proxy_event.h"]}
{"id": "C23", "title": "Application to process mapping", "statement": "The mapping from application id to process id holds at most one process per application: registering returns the previously registered process, later registrations win, other applications are unaffected, and registration fails only when the table is full.", "quantifier": "every history of registrations", "why_tests_cant": "unbounded histories", "anchors": ["score/mw/com/impl/bindings/lola/application_id_pid_mapping.cpp", "score/mw/com/impl/bindings/lola/application_id_pid_mapping_entry.cpp"]}
{"id": "C24", "title": "LinearSearchMap is a map", "statement": "LinearSearchMap behaves like a finite map with first-insertion-wins semantics that keeps insertion order: at most one value per key, find/at/emplace agree with the map, capacity is the only failure.", "quantifier": "every operation sequence", "why_tests_cant": "unbounded histories", "anchors": ["score/mw/com/impl/bindings/lola/linear_search_map.h"]}
{"id": "C25", "title": "Allocated samples are released exactly once", "statement": "Every sample obtained from Allocate is given back or published exactly once under every sequence of moves, swaps, Send and destructions of SampleAllocateePtr; destruction after Send never frees the published sample.", "quantifier": "every sequence of pointer operations", "why_tests_cant": "unbounded histories", "anchors": ["score/mw/com/impl/bindings/lola/sample_allocatee_ptr.h", "score/mw/com/impl/bindings/lola/skeleton_event.h:Send", "score/mw/com/impl/bindings/lola/event_data_control_composite.cpp:Discard"]}
{"id": "C26", "title": "Aligned size computation", "statement": "CalculateAlignedSize(size, alignment) is the smallest multiple of alignment that is at least size and at least alignment for non-zero sizes; it never wraps around silently.", "quantifier": "all 64-bit sizes and alignments", "why_tests_cant": "2^128 inputs", "anchors": ["score/memory/shared/pointer_arithmetic_util.h:CalculateAlignedSize"]}
{"id": "C27", "title": "Analytic shared-memory size is exact", "statement": "CalculateAlignedSizeOfSequence equals the space a monotonic allocation of the same sequence consumes from a suitably aligned base, so a region of that size always fits and one byte less does not.", "quantifier": "every sequence of sizes and alignments", "why_tests_cant": "all sequences", "anchors": ["score/memory/shared/pointer_arithmetic_util.cpp:CalculateAlignedSizeOfSequence", "score/memory/shared/shared_memory_resource.cpp:do_allocation_algorithm"]}
{"id": "C28", "title": "Shared-memory allocations are disjoint, aligned and inside the region", "statement": "Blocks handed out by concurrent allocations from any number of processes are pairwise disjoint, aligned as requested, inside the region and never overlap the management data.", "quantifier": "every interleaving of allocating processes, every crash, every request sequence", "why_tests_cant": "racing compare-exchange loop across processes", "anchors": ["score/memory/shared/shared_memory_resource.cpp:do_allocate,do_allocation_algorithm,initializeControlBlock"]}
{"id": "C29", "title": "Calculated shared-memory size suffices for the service", "statement": "With the size calculation modes (simulation or estimation) the created shared memory always suffices to construct the storage of all configured events and fields.", "quantifier": "every service configuration", "why_tests_cant": "all configurations", "anchors": ["score/mw/com/impl/bindings/lola/skeleton_memory_manager.cpp:CalculateDataShmResourceStorageSize,CreateGenericEventData", "score/mw/com/impl/bindings/lola/skeleton_event_properties.h:GetTotalNumberOfSlots", "score/memory/shared/new_delete_delegate_resource.cpp"]}
{"id": "C30", "title": "OffsetPtr access is bounds checked", "statement": "With bounds checking on, whenever dereferencing an OffsetPtr that lies in a shared-memory region (or a stack copy of one) returns a pointer, the whole pointed-to object lies inside that region; otherwise the process is terminated, for every offset value an attacker may have written.", "quantifier": "every offset value, location, object size and set of registered regions", "why_tests_cant": "2^64 offsets times all layouts", "anchors": ["score/memory/shared/offset_ptr.h:GetPointerWithBoundsCheck", "score/memory/shared/offset_ptr_bounds_check.cpp", "score/memory/shared/memory_region_map.cpp:GetBoundsFromAddress"]}
{"id": "C31", "title": "Copying an OffsetPtr keeps its target", "statement": "Copying an OffsetPtr between any two locations yields a pointer to the same object (null stays null) and a stack copy of a shared-memory pointer stays confined to the source region.", "quantifier": "all addresses and offsets", "why_tests_cant": "2^64 inputs", "anchors": ["score/memory/shared/offset_ptr.h:CopyFrom,CalculateOffsetFromPointer,CalculatePointerFromOffset"]}
{"id": "C32", "title": "A null OffsetPtr reads as null", "statement": "get() of a null OffsetPtr returns a null pointer wherever the OffsetPtr is stored.", "quantifier": "all locations of the pointer relative to the region", "why_tests_cant": "all layouts", "anchors": ["score/memory/shared/offset_ptr.h:get,GetPointerWithBoundsCheck"]}
{"id": "C33", "title": "Swapping OffsetPtrs keeps their protection", "statement": "swap exchanges the targets of two OffsetPtrs and each stays bounds-checked as before.", "quantifier": "all pairs of OffsetPtrs", "why_tests_cant": "all inputs", "anchors": ["score/memory/shared/offset_ptr.h:swap"]}
{"id": "C34", "title": "OffsetPtr arithmetic", "statement": "Incrementing, decrementing, adding and subtracting on OffsetPtr agree with the same arithmetic on raw pointers, the difference of two OffsetPtrs is the element distance, and every overflow is detected by termination rather than wrapping.", "quantifier": "all 64-bit offsets, distances and element sizes", "why_tests_cant": "2^128 inputs", "anchors": ["score/memory/shared/offset_ptr.h:IncrementOffset,DecrementOffset", "score/memory/shared/pointer_arithmetic_util.h:AddUnsignedToSigned,SubtractUnsignedFromSigned"]}
{"id": "C35", "title": "Pointer difference is exact", "statement": "SubtractPointersBytes returns the exact difference of two addresses or terminates when it is not representable, also for the most negative value.", "quantifier": "all pairs of 64-bit addresses", "why_tests_cant": "2^128 inputs", "anchors": ["score/memory/shared/pointer_arithmetic_util.cpp:SubtractPointersBytes", "score/memory/shared/pointer_arithmetic_util.h:AbsoluteValue,UndoSignedToUnsignedIntegerCast"]}
{"id": "C36", "title": "Region lookup", "statement": "After any history of registering and removing memory regions the known regions are pairwise disjoint and looking up an address returns the region containing it, or nothing if it is in none.", "quantifier": "every history of registrations, every address", "why_tests_cant": "unbounded histories", "anchors": ["score/memory/shared/memory_region_map.cpp:UpdateKnownRegion,RemoveKnownRegion,GetBoundsFromAddress"]}
{"id": "C37", "title": "Region lookup under concurrent change", "statement": "A lookup running concurrently with registrations and removals always evaluates one complete, fully written set of regions, never one that is being rewritten.", "quantifier": "every interleaving of one writer with any number of lock-free readers", "why_tests_cant": "lock-free versioned snapshot protocol", "anchors": ["score/memory/shared/memory_region_map.cpp:AcquireLatestRegionVersionForRead,AcquireRegionVersionForOverwrite"]}
{"id": "C38", "title": "Gateway message round trip", "statement": "Deserializing a serialized gateway message yields an equal message, for every message whose strings are non-empty and free of NUL and whose lists are below 65536 entries; the encoder never writes outside its buffer.", "quantifier": "all messages and buffer sizes", "why_tests_cant": "infinitely many messages", "anchors": ["score/mw/com/gateway/transport_layer/sample/messages/serialization.h", "score/mw/com/gateway/transport_layer/sample/messages/gateway_messages.cpp"]}
{"id": "C39", "title": "Gateway decoder is safe on arbitrary input", "statement": "Decoding an arbitrary byte sequence terminates, never reads outside it and consumes at most its length.", "quantifier": "all byte sequences", "why_tests_cant": "infinitely many inputs", "anchors": ["score/mw/com/gateway/transport_layer/sample/messages/serialization.h:Deserialize", "score/mw/com/gateway/transport_layer/sample/message_framer.cpp:ReceiveMessage"]}
{"id": "C40", "title": "Gateway messages survive the wire for all values", "statement": "Every message the gateway application can construct (including element names handed over as views and empty names) arrives unchanged on the other side.", "quantifier": "all messages", "why_tests_cant": "infinitely many messages", "anchors": ["score/mw/com/gateway/transport_layer/sample/messages/gateway_messages.h:ProvideServiceRequest", "score/mw/com/impl/generic_skeleton.h:EventInfo", "score/mw/com/gateway/transport_layer/sample/messages/serialization.h:Deserialize"]}
{"id": "C41", "title": "Gateway framing is independent of segmentation", "statement": "However the byte stream is cut into recv results, the receiver reconstructs exactly the sequence of messages that was sent, with their sequence numbers, until the peer disconnects.", "quantifier": "every message sequence and every segmentation", "why_tests_cant": "infinitely many segmentations", "anchors": ["score/mw/com/gateway/transport_layer/sample/message_framer.cpp:SendAll,ReceiveAll,SendMessage,ReceiveMessage", "score/mw/com/gateway/transport_layer/sample/messages/transport_message.h:MessageHeader"]}
{"id": "C42", "title": "Request acknowledgement", "statement": "SendRequest reports success only if an acknowledgement for exactly that request arrived after it was registered; concurrent requests never consume each other's acknowledgement.", "quantifier": "every interleaving of requests, acknowledgements, timeouts and connection changes in which fewer than 2^32 further requests begin while one is in progress", "why_tests_cant": "schedules are unbounded", "anchors": ["score/mw/com/gateway/transport_layer/sample/pending_request_tracker.cpp", "score/mw/com/gateway/transport_layer/sample/bidirectional_transport.cpp:SendRequest"]}
{"id": "C43", "title": "Gateway application survives service churn", "statement": "No sequence of local services appearing and disappearing and of transport failures terminates the gateway.", "quantifier": "every history of discovery callbacks and transport results", "why_tests_cant": "unbounded histories", "anchors": ["score/mw/com/gateway/gateway_application/gateway_application.cpp:OnServiceAvailabilityChanged,OnServiceUnavailable,PropagateService"]}
{"id": "C44", "title": "Reply callbacks are called exactly once", "statement": "Every request accepted by SendWithCallback gets its callback invoked exactly once: with the reply, or with an error when the connection stops.", "quantifier": "every interleaving of sends, replies, transport failures and stop", "why_tests_cant": "schedules and histories are unbounded", "anchors": ["score/message_passing/client_connection.cpp:SendWithCallback,ProcessInputEvent,ProcessSendQueueUnderLock,SwitchToStopState"]}
{"id": "C45", "title": "Queued messages keep their order", "statement": "With a fully ordered or truly asynchronous client the server receives the messages in the order in which the calls were accepted.", "quantifier": "every history of Send/SendWithCallback and replies", "why_tests_cant": "unbounded histories", "anchors": ["score/message_passing/client_connection.cpp:Send,TryQueueMessage,ProcessSendQueueUnderLock"]}
{"id": "C46", "title": "Queue capacity survives a restart", "statement": "After Stop and Restart a client can again queue the configured number of messages.", "quantifier": "every history", "why_tests_cant": "unbounded histories", "anchors": ["score/message_passing/client_connection.cpp:SwitchToStopState,TryQueueMessage"]}
{"id": "C47", "title": "No callback into a finished SendWaitReply", "statement": "The connection never touches the caller's reply buffer or wait object after SendWaitReply has returned.", "quantifier": "every interleaving of SendWaitReply with the engine thread", "why_tests_cant": "race window of a few instructions", "anchors": ["score/message_passing/client_connection.cpp:SendWaitReply,SwitchToStopState", "score/message_passing/non_allocating_future/non_allocating_future.h"]}
{"id": "C48", "title": "Timed command queue order", "statement": "Commands run in due-time order, commands with equal due time in registration order, none before it is due, each exactly once; cleaning up an owner removes exactly that owner's commands.", "quantifier": "every history of registrations, processing and clean-ups", "why_tests_cant": "unbounded histories", "anchors": ["score/message_passing/timed_command_queue.cpp"]}
{"id": "C49", "title": "Unix-domain message framing", "statement": "A message sent over the Unix-domain engine is received unchanged for every size the protocol configuration admits.", "quantifier": "all message contents and sizes, all configured maximum sizes", "why_tests_cant": "all sizes", "anchors": ["score/message_passing/unix_domain/unix_domain_engine.cpp:SendProtocolMessage,ReceiveProtocolMessage"]}
{"id": "C50", "title": "Instance specifier syntax", "statement": "InstanceSpecifier::Create accepts exactly the strings of the documented grammar: a non-empty path of letters, digits, underscores and slashes that does not start with a digit, does not end with a slash and has no empty inner segment.", "quantifier": "all strings", "why_tests_cant": "infinitely many strings", "anchors": ["score/mw/com/impl/instance_specifier.cpp:IsShortNameValid"]}
{"id": "C51", "title": "Shared memory in use is never destroyed or recreated", "statement": "While any consumer uses the shared memory of a service instance, neither stopping the offer nor re-offering removes or recreates it; when nobody uses it, stopping the offer removes it.", "quantifier": "every history of provider starts, stops and crashes and of consumer attach, detach and crash", "why_tests_cant": "unbounded histories across processes", "anchors": ["score/mw/com/impl/bindings/lola/skeleton.cpp:DetermineShmReuseStrategy,DetermineShmRemovalStrategy,PrepareOffer,PrepareStopOffer"]}
{"id": "C52", "title": "Single provider per service instance", "statement": "At most one live provider process offers a given service instance.", "quantifier": "every history of Create and destruction and crash", "why_tests_cant": "unbounded histories across processes", "anchors": ["score/mw/com/impl/bindings/lola/skeleton.cpp:Create"]}
{"id": "C53", "title": "Error codes survive serialization", "statement": "Deserialize(SerializeError(e)) is the error e for every valid error code and Deserialize(SerializeSuccess()) is success.", "quantifier": "all error codes", "why_tests_cant": "exhaustiveness over the code set", "anchors": ["score/mw/com/impl/error_serializer.cpp"]}
{"id": "C54", "title": "Shared-memory ids and names are unique", "statement": "Different (service id, instance id, memory kind) triples get different shared-memory identifiers, and different shared-memory objects and marker files (data, control per quality, method memory per proxy, usage and existence marker) get different file names.", "quantifier": "all 16-bit ids", "why_tests_cant": "2^33 combinations squared", "anchors": ["score/mw/com/impl/bindings/lola/skeleton_memory_manager.cpp:CalculateMemoryResourceId"]}
{"id": "C55", "title": "Consumer access rights", "statement": "Under strict permissions only explicitly configured users can access a service; otherwise everyone may access exactly when no user list is configured for the quality level.", "quantifier": "all configurations and users", "why_tests_cant": "all configurations", "anchors": ["score/mw/com/impl/bindings/lola/skeleton.cpp:GetAllowedConsumers", "score/mw/com/impl/bindings/lola/skeleton_memory_manager.cpp:CreateSharedMemoryForData,CreateSharedMemoryForControl", "score/mw/com/impl/bindings/lola/proxy.cpp:OpenSharedMemory", "score/memory/shared/shared_memory_resource.cpp:CreateImpl,CompensateUmask"]}
{"id": "C56", "title": "QM consumers of an ASIL-B provider keep their samples", "statement": "A sample that a well-behaved QM consumer holds from an ASIL-B provider is not overwritten before the consumer gives it back.", "quantifier": "every schedule, every number of slots and consumers", "why_tests_cant": "depends on the interleaving of allocation attempts with references of both qualities", "anchors": ["score/mw/com/impl/bindings/lola/event_data_control_composite.cpp:AllocateNextSlot", "score/mw/com/impl/bindings/lola/skeleton_event_common.h:AllocateSlot"]}
{"id": "C57", "title": "QM memory content cannot terminate the ASIL-B provider", "statement": "Whatever a QM process writes into the QM control memory, Allocate of the ASIL-B provider returns (with a sample or an error) instead of terminating the provider process.", "quantifier": "every content of the QM control memory", "why_tests_cant": "an adversarial neighbour has unboundedly many behaviours", "anchors": ["score/mw/com/impl/bindings/lola/event_data_control_composite.cpp:GetNextFreeMultiSlot"]}
{"id": "C58", "title": "Ending a subscription waits for its receive handler", "statement": "When Unsubscribe has ended the subscription of an event and was not called from a receive handler of that event, no receive handler of the event is running, and none is started until a new one is set.", "quantifier": "all histories of calls, notifications and running handlers of an event", "why_tests_cant": "depends on which handlers run on which thread at the moment of the call", "anchors": ["score/mw/com/impl/proxy_event_base.cpp:ProxyEventBase::Unsubscribe", "score/mw/com/impl/proxy_event_base.cpp:ExpireReceiveHandlerScopeIfNotInHandler"]}
{"id": "C59", "title": "Creating a further proxy never rolls back a live subscription", "statement": "Creating a proxy, in whatever application and however often, never rolls back or frees the bookkeeping of a subscription that belongs to a running process.", "quantifier": "every history of proxy creations, subscriptions, unsubscriptions and crashes of any number of applications (one process per application id)", "why_tests_cant": "unbounded histories of several applications", "anchors": ["score/mw/com/impl/bindings/lola/transaction_log_rollback_executor.cpp:RollbackTransactionLogs", "score/mw/com/impl/bindings/lola/rollback_synchronization.cpp:GetMutex", "score/mw/com/impl/bindings/lola/transaction_log_set.cpp:MarkTransactionLogsNeedRollback"]}
{"id": "C60", "title": "Allocated samples survive stopping and re-offering the service safely", "statement": "A sample pointer obtained from Allocate stays the only owner of its sample, or becomes harmless, when the provider stops and re-offers the service while the pointer is alive.", "quantifier": "all interleavings of Allocate, moves, Send, destruction, StopOfferService and OfferService", "why_tests_cant": "the damage only shows for particular orders of destruction, re-offer and allocation", "anchors": ["score/mw/com/impl/bindings/lola/skeleton_event_common.h:PrepareStopOfferCommon", "score/mw/com/impl/bindings/lola/sample_allocatee_ptr.h:SampleAllocateePtr"]}
{"id": "C61", "title": "Allocation never leaves the region", "statement": "Whatever value another process with write access left in the shared allocation counter, an allocation from the shared memory either terminates the allocating process or returns memory that lies completely inside the mapped region.", "quantifier": "all region addresses and sizes, all 64-bit counter values, request sizes and alignments", "why_tests_cant": "a test would have to corrupt the counter with each of 2^64 values; the dangerous ones make a signed difference negative", "anchors": ["score/memory/shared/shared_memory_resource.cpp:do_allocate", "score/memory/shared/memory_resource_registry.cpp", "score/memory/shared/pointer_arithmetic_util.h:SubtractPointersBytes"]}
{"id": "C62", "title": "A SamplePtr that is not null keeps its sample", "statement": "Like a unique_ptr, exactly the SamplePtrs that test non-null own a sample: as long as a SamplePtr tests non-null the sample it points to is kept from being reused by the provider, after any sequence of moves, assignments, swaps and resets.", "quantifier": "every sequence and interleaving of SamplePtr operations", "why_tests_cant": "requires every history of moves, the stale pointer only shows when the slot is reused", "anchors": ["score/mw/com/impl/plumbing/sample_ptr.h:SamplePtr", "score/mw/com/impl/bindings/lola/sample_ptr.h:SamplePtr", "score/mw/com/impl/bindings/lola/slot_decrementer.cpp"]}
{"id": "C63", "title": "Acknowledged gateway requests are executed", "statement": "When a gateway request is reported as successful the other side has received it for execution, requests of one caller are executed in the order made, and none is executed twice.", "quantifier": "every interleaving of requesting threads, receiver, timeouts, lost connections", "why_tests_cant": "schedules and timeouts are unbounded", "anchors": ["score/mw/com/gateway/transport_layer/sample/bidirectional_transport.cpp:SendRequest,HandleIncomingMessage,DispatchLoop", "score/mw/com/gateway/transport_layer/sample/pending_request_tracker.cpp"]}
{"id": "C64", "title": "Gateway update forwarding follows subscriptions", "statement": "The other gateway is asked to forward updates of an event exactly while local consumers have a receive handler registered for it, also after a request failed.", "quantifier": "every history of handler registrations, service churn and transport results", "why_tests_cant": "unbounded histories", "anchors": ["score/mw/com/gateway/gateway_application/gateway_application.cpp:OnSubscriptionStateChanged,ReRegisterActiveEventSubscriptions,ProvideService"]}
{"id": "C65", "title": "Gateway tables are accessed race-free", "statement": "No two gateway callbacks that can run concurrently (service discovery, requests of the other gateway, event callbacks) access the same table without synchronisation, one of them modifying it.", "quantifier": "every pair of concurrent callbacks", "why_tests_cant": "a data race depends on the schedule and may stay invisible", "anchors": ["score/mw/com/gateway/gateway_application/gateway_application.cpp:OnServiceAvailabilityChanged,ProvideService,RegisterUpdateNotification,UnregisterUpdateNotification,NotifyUpdate,OnSubscriptionStateChanged"]}
{"id": "C66", "title": "A client connection never aborts the process", "statement": "Whatever the order in which application threads call the send functions of a message passing client connection, the server answers, transmissions fail and the connection is stopped and restarted, the connection never calls an empty callback, never accesses a missing reply slot, never links one command twice into the engine's queue and never violates its own assertions.", "quantifier": "every configuration (queue capacity, ordering, asynchrony, assertions on or off), every number of calling threads, every interleaving of their steps with the engine thread, every outcome of every transmission, every history of stops and restarts", "why_tests_cant": "The failing interleavings need a reply, a transmission failure or a stop to fall between two particular lock acquisitions; tests run a handful of schedules with a cooperative server", "anchors": ["score/message_passing/client_connection.cpp:ClientConnection::ArmSendQueueUnderLock", "score/message_passing/client_connection.cpp:ClientConnection::ProcessSendQueueUnderLock", "score/message_passing/client_connection.cpp:ClientConnection::ProcessInputEvent", "score/message_passing/client_connection.cpp:ClientConnection::SwitchToStopState"]}
{"id": "C67", "title": "Due commands are executed without further events", "statement": "While commands are queued, the engine thread's sleep is limited and ends shortly after the next command is due; it never depends on unrelated input or registrations to execute a queued command.", "quantifier": "every history of registrations by any threads, callbacks of any duration, clean-ups and wake-ups; all clock values", "why_tests_cant": "the failing case needs a callback that runs longer than the distance to the next due time; durations and interleavings are unbounded", "anchors": ["score/message_passing/unix_domain/unix_domain_engine.cpp:UnixDomainEngine::ProcessTimerQueue", "score/message_passing/unix_domain/unix_domain_engine.cpp:UnixDomainEngine::RunOnThread", "score/message_passing/timed_command_queue.cpp:TimedCommandQueue::ProcessQueue"]}
{"id": "C68", "title": "Send notifies when a receive handler is registered", "statement": "While an event is offered and some receive handler is registered for it, in the provider's process or in another one, and no registration call is in progress, Send notifies; when no handler is registered any more Send does not.", "quantifier": "every interleaving of SetReceiveHandler/UnsetReceiveHandler calls, remote register/unregister/outdated messages, OfferService and StopOfferService", "why_tests_cant": "the flag is maintained by callbacks delivered outside the locks; only particular interleavings lose an update", "anchors": ["score/mw/com/impl/bindings/lola/messaging/message_passing_service_instance.cpp:RegisterEventNotification", "score/mw/com/impl/bindings/lola/messaging/message_passing_service_instance.cpp:HandleRegisterNotificationMsg", "score/mw/com/impl/bindings/lola/skeleton_event_common.h:PrepareOfferCommon"]}
{"id": "C69", "title": "A notification reaches every registered handler and process once", "statement": "One notification of an event calls every registered local receive handler whose owner exists once, and sends exactly one message to every process registered throughout, even if registrations change meanwhile.", "quantifier": "every set of handlers, every set of registered processes and every change of it between the partial copies", "why_tests_cant": "the sets are copied piecewise under a lock; tests use a few consumers", "anchors": ["score/mw/com/impl/bindings/lola/messaging/message_passing_service_instance.cpp:NotifyEventRemote", "score/mw/com/impl/bindings/lola/messaging/message_passing_service_instance.cpp:NotifyEventLocally", "score/mw/com/impl/bindings/lola/messaging/node_identifier_copier.h:CopyNodeIdentifiers"]}
{"id": "C70", "title": "Offering again never terminates the provider", "statement": "A provider may offer its service, stop offering and offer again any number of times, whatever consumers attach and detach in between, and also after an offer that failed: OfferService returns success or an error and never terminates the process, and it fails only if the shared memory cannot be created.", "quantifier": "All interleavings of offers, stops, failing offers, consumers attaching and detaching, crashes.", "why_tests_cant": "Whether the shared memory survives a stop depends on which consumers hold the marker lock at that moment; tests use one or two fixed orders.", "anchors": ["score/mw/com/impl/bindings/lola/skeleton.cpp:PrepareOffer", "score/mw/com/impl/bindings/lola/skeleton.cpp:PrepareStopOffer", "score/memory/shared/shared_memory_factory_impl.cpp:RemoveStaleArtefacts"]}
{"id": "C71", "title": "Shared memory is never handed out before it is initialised", "statement": "Whatever processes create, open and clean up the shared memory of one path, and wherever they die, an object returned by Open or Create has been initialised completely, including by the creator's callback.", "quantifier": "All interleavings of Create, Open and RemoveStaleArtefacts calls by any number of processes, with a crash possible at every step.", "why_tests_cant": "The windows are a few system calls wide and need a second or third process or a crash at an exact point.", "anchors": ["score/memory/shared/shared_memory_resource.cpp:CreateImpl", "score/memory/shared/shared_memory_resource.cpp:acquireLockAndOpenSharedMemory", "score/memory/shared/lock_file.cpp:CleanupFile", "score/memory/shared/shared_memory_factory_impl.cpp:RemoveStaleArtefacts"]}
{"id": "C72", "title": "The death of one process does not keep another from opening shared memory", "statement": "If a process dies at any point of creating or opening shared memory, other processes' Open calls still return: with the object if it is complete, otherwise with an error.", "quantifier": "All schedules and crash points of any number of processes.", "why_tests_cant": "Needs a crash between creating and unlinking the lock file.", "anchors": ["score/memory/shared/shared_memory_resource.cpp:acquireLockFile", "score/memory/shared/shared_memory_resource.cpp:waitForFreeLockFile", "score/memory/shared/lock_file.cpp:Create"]}
{"id": "C73", "title": "A method call runs on the calling proxy's own memory", "statement": "While a proxy's method subscription lasts, each of its calls to an enabled method runs the provider's handler exactly on that proxy's call queue, at the position asked; a handler never runs for another user, another quality level or after the subscription ended.", "quantifier": "every history of offers, stop-offers, subscriptions, unsubscriptions and calls by any number of consumer processes, including restarts", "why_tests_cant": "tests subscribe one or two proxies in a fixed order; whose memory a call reaches after restarts, resubscriptions and shared identifiers depends on the whole history", "anchors": ["score/mw/com/impl/bindings/lola/skeleton.cpp:OnServiceMethodsSubscribed", "score/mw/com/impl/bindings/lola/skeleton_method.cpp:OnProxyMethodSubscribeFinished", "score/mw/com/impl/bindings/lola/methods/method_resource_map.cpp:MethodResourceMap"]}
{"id": "C74", "title": "Consumers cannot terminate the provider through methods", "statement": "No subscription, unsubscription or call message of a consumer makes the provider process terminate or lets a handler access memory that is no longer mapped.", "quantifier": "every history of subscriptions, unsubscriptions and calls by any number of consumer processes, every region content and every queue position", "why_tests_cant": "the failing sequences need restarts, shared identifiers, failed openings or unexpected region contents; a test covers only the sequences its author thought of", "anchors": ["score/mw/com/impl/bindings/lola/skeleton.cpp:OnServiceMethodsSubscribed", "score/mw/com/impl/bindings/lola/skeleton_method.cpp:OnProxyMethodSubscribeFinished", "score/mw/com/impl/bindings/lola/messaging/message_passing_service_instance.cpp:RegisterMethodCallHandler"]}
{"id": "C75", "title": "Service searches end up telling what is offered", "statement": "Whenever all file-system notifications have been handled, the last list passed to the handler of a running StartFindService search (nothing, if it was not called) is exactly the list of matching instances currently offered at the consumer's quality level; and from every state the client's own threads can reach such a point.", "quantifier": "all interleavings of providers creating directories, offering and withdrawing, of starting, stopping and failing searches, of batch sizes read from the kernel, of handler calls, any number of instances and searches", "why_tests_cant": "depends on how kernel events are batched and interleave with crawling and handler calls", "anchors": ["score/mw/com/impl/bindings/lola/service_discovery/client/service_discovery_client.cpp:HandleEvents", "score/mw/com/impl/bindings/lola/service_discovery/client/service_discovery_client.cpp:StartFindService", "score/mw/com/impl/bindings/lola/service_discovery/flag_file_crawler.cpp:CrawlAndWatchImpl", "score/mw/com/impl/bindings/lola/service_discovery/known_instances_container.cpp:Merge"]}
{"id": "C76", "title": "A find handler is called only when its list changed", "statement": "Each call of a StartFindService handler passes a list that differs, as a set, from the one passed before (the first one is not empty) and holds only instances the search asked for; a search for one instance is told in turns that it is there and that it is gone.", "quantifier": "all runs as in C75, including those where the client is terminated", "why_tests_cant": "needs every interleaving of events and searches", "anchors": ["score/mw/com/impl/bindings/lola/service_discovery/client/service_discovery_client.cpp:CallHandlers", "score/mw/com/impl/bindings/lola/service_discovery/client/service_discovery_client.cpp:TransferNewSearchRequest"]}
{"id": "C77", "title": "No handler call after StopFindService", "statement": "Once StopFindService for a handle has returned, the handler of that search is never called again, whatever is offered or searched later.", "quantifier": "all states in which StopFindService is called and all continuations", "why_tests_cant": "a late call depends on the worker's progress at the time of the stop", "anchors": ["score/mw/com/impl/bindings/lola/service_discovery/client/service_discovery_client.cpp:StopFindService", "score/mw/com/impl/bindings/lola/service_discovery/client/service_discovery_client.cpp:TransferObsoleteSearchRequest"]}
{"id": "C78", "title": "FindService lists what is offered while it runs", "statement": "FindService returns every matching instance that is offered during the whole call, and only instances that match and were offered at some moment of the call.", "quantifier": "all file-system contents and all changes made by providers between the listing and each check", "why_tests_cant": "depends on changes during the crawl", "anchors": ["score/mw/com/impl/bindings/lola/service_discovery/client/service_discovery_client.cpp:FindService", "score/mw/com/impl/bindings/lola/service_discovery/flag_file_crawler.cpp:GetAlreadyExistingInstances"]}
{"id": "C79", "title": "Service discovery never terminates the consumer", "statement": "No sequence of offers, withdrawals, searches and stops makes an assertion of the service discovery client fail.", "quantifier": "all runs as in C75", "why_tests_cant": "the tables linking searches, watches and instances must stay consistent in every history", "anchors": ["score/mw/com/impl/bindings/lola/service_discovery/client/service_discovery_client.cpp:LinkWatchWithSearchRequest", "score/mw/com/impl/bindings/lola/service_discovery/client/service_discovery_client.cpp:UnlinkWatchWithSearchRequest", "score/mw/com/impl/bindings/lola/service_discovery/client/service_discovery_client.cpp:EraseWatch", "score/mw/com/impl/bindings/lola/service_discovery/client/service_discovery_client.cpp:OnInstanceDirectoryCreated"]}
{"id": "C80", "title": "Availability changes never terminate a proxy", "statement": "The sequence of availability notifications that service discovery delivers to a proxy never drives its offer state tracking into an assertion.", "quantifier": "all runs as in C75", "why_tests_cant": "needs every history of offers and withdrawals", "anchors": ["score/mw/com/impl/bindings/lola/methods/offered_state_machine.cpp:StopOfferedState", "score/mw/com/impl/bindings/lola/proxy.cpp:ServiceAvailabilityChangeHandler", "score/mw/com/impl/bindings/lola/proxy.cpp:StartProxyAutoReconnect"]}
{"id": "C81", "title": "The provider knows which processes want to be notified", "statement": "While a proxy is subscribed with a receive handler and has learned that the service instance is offered, the provider's process has the proxy's process among those it notifies of new samples; once no proxy of the process is subscribed with a handler, it has not. Setting, replacing and removing handlers, subscribing, unsubscribing, destroying proxies and provider restarts never terminate the consumer's process.", "quantifier": "All numbers of proxies of one event in a process, all histories of creating, subscribing, setting and removing handlers, destroying, all provider stops, restarts and re-offers, all orders in which service discovery reaches the proxies, all losses and interleavings of register and unregister messages.", "why_tests_cant": "The shared count of registrations goes wrong only in particular orders of notifications to several proxies, after tens of thousands of re-offers, or in a race of two messages.", "anchors": ["score/mw/com/impl/bindings/lola/messaging/message_passing_service_instance.cpp:RegisterEventNotificationRemote, UnregisterEventNotificationRemote, ReregisterEventNotification", "score/mw/com/impl/bindings/lola/subscription_helpers.cpp:EventReceiveHandlerManager", "score/mw/com/impl/bindings/lola/subscription_subscription_pending_states.cpp:SubscriptionPendingState"]}
{"id": "C82", "title": "QM consumers are dropped only as a last resort", "statement": "Allocate of an ASIL-B provider with QM consumers returns, if nobody interferes and some slot is unused by the consumers of both qualities, the one of them with the oldest sample, and goes on serving both qualities; it stops serving the QM consumers only after one hundred attempts, each of which lost a race or saw every slot in use.", "quantifier": "every history of sends, discards, reads of QM and ASIL-B consumers (including corrupted QM control data where the statement is about ASIL-B), every schedule of the allocation with them", "why_tests_cant": "the hundred attempts and the interleaving of consumers with each of them cannot be enumerated; a test sees a few interleavings", "anchors": ["score/mw/com/impl/bindings/lola/event_data_control_composite.cpp:GetNextFreeMultiSlot", "score/mw/com/impl/bindings/lola/event_data_control_composite.cpp:AllocateNextMultiSlot", "score/mw/com/impl/bindings/lola/event_data_control_composite.cpp:AllocateNextSlot"]}
{"id": "C83", "title": "Messages between processes are understood as meant and received bytes are harmless", "statement": "Every notification and request one process sends is understood by the receiver exactly as meant; the caller of a method learns the actual outcome; whatever bytes a process receives, from whomever, they do not terminate it, do not change what other processes registered, and malformed ones change nothing.", "quantifier": "all identifiers, positions and padding bytes, all byte strings received in any state of the receiver, every outcome of the handlers", "why_tests_cant": "unit tests send a few well-formed and two or three malformed messages; the claim is about every byte string and every value of every field", "anchors": ["score/mw/com/impl/bindings/lola/messaging/message_passing_service_instance.cpp:MessageCallback", "score/mw/com/impl/bindings/lola/messaging/message_passing_service_instance.cpp:MessageCallbackWithReply", "score/mw/com/impl/bindings/lola/messaging/message_passing_service_instance.cpp:DeserializeFromMethodReplyPayload", "score/mw/com/impl/bindings/lola/messaging/message_passing_service_instance.cpp:HandleOutdatedNodeIdMsg"]}
{"id": "C84", "title": "Restarts of consumers keep the provider's registrations right", "statement": "Whatever consumer processes start, die and restart, the provider notifies a live process exactly if that process has a receive handler registered (once its messages have arrived), and stops notifying the earlier processes of a restarted application.", "quantifier": "every history of starts, deaths, restarts, registrations and message deliveries of any number of processes and applications", "why_tests_cant": "a test restarts one consumer once, with a fresh process id and no messages under way", "anchors": ["score/mw/com/impl/bindings/lola/transaction_log_rollback_executor.cpp:PrepareRollback", "score/mw/com/impl/bindings/lola/messaging/message_passing_service_instance.cpp:HandleOutdatedNodeIdMsg", "score/mw/com/impl/bindings/lola/messaging/message_passing_service_instance.cpp:NotifyOutdatedNodeId"]}
{"id": "C85", "title": "Sending to another process returns, and reaches a process that listens", "statement": "Every call that sends a message to another process (notification of a new sample, registration of a receive handler, subscription to a method, ...) returns; while the other process listens every message is handed to a working connection, whatever connections failed before; handling the message that a process is outdated never terminates the receiver or blocks it for ever; a message to a process that does not listen is reported as lost.", "quantifier": "all interleavings of sending threads, of the messaging thread's commands, of messages handled and of processes starting to listen and dying, from all reachable states", "why_tests_cant": "A deadlock between the connection cache's lock and the messaging thread needs one particular overlap of an eviction and an incoming message; tests run one caller with a mocked connection.", "anchors": ["score/mw/com/impl/bindings/lola/messaging/message_passing_client_cache.cpp:MessagePassingClientCache::GetMessagePassingClient", "score/mw/com/impl/bindings/lola/messaging/message_passing_client_cache.cpp:MessagePassingClientCache::RemoveMessagePassingClient", "score/message_passing/client_connection.cpp:ClientConnection::Stop", "score/message_passing/client_connection.cpp:ClientConnection::~ClientConnection"]}
{"id": "C86", "title": "An offered field always has its current value", "statement": "OfferService succeeds only if every field has been given a value and every field with a setter its handler, and the first OfferService succeeds whenever they have; it answers kFieldValueIsNotValid only if some field has no value. While the service is offered a consumer's Get answers the value of the latest successful Update or accepted Set.", "quantifier": "all services (any number of events and fields), all histories of Update, RegisterSetHandler, OfferService, StopOfferService, restarts and consumers' Get and Set, with every outcome of the operating system", "why_tests_cant": "Whether a value survives depends on the history of earlier offers, failed offers and attached consumers; the unit tests offer once with mocked bindings.", "anchors": ["score/mw/com/impl/skeleton_base.cpp:SkeletonBase::OfferService", "score/mw/com/impl/skeleton_base.cpp:SkeletonBase::StopOfferService", "score/mw/com/impl/skeleton_field_base.h:SkeletonFieldBase::PrepareOffer", "score/mw/com/impl/skeleton_field.h:SkeletonFieldImpl::Update", "score/mw/com/impl/bindings/lola/skeleton.cpp:Skeleton::PrepareOffer", "score/mw/com/impl/bindings/lola/skeleton.cpp:Skeleton::PrepareStopOffer"]}
{"id": "C87", "title": "Offering and stopping never terminate the provider", "statement": "OfferService, StopOfferService and consumers' Get and Set calls at any moment never make the provider's process fail an assertion or run into undefined behaviour.", "quantifier": "all interleavings of the provider's steps with consumers' calls, arrivals and departures, over all histories", "why_tests_cant": "The failure needs a consumer's call between two internal steps of StopOfferService, or a particular history of offers and departures.", "anchors": ["score/mw/com/impl/skeleton_base.cpp:SkeletonBase::OfferService", "score/mw/com/impl/skeleton_base.cpp:SkeletonBase::StopOfferService", "score/mw/com/impl/skeleton_field_base.h:SkeletonFieldBase::PrepareOffer", "score/mw/com/impl/skeleton_field.h:SkeletonFieldImpl::Update", "score/mw/com/impl/bindings/lola/skeleton.cpp:Skeleton::PrepareOffer", "score/mw/com/impl/bindings/lola/skeleton.cpp:Skeleton::PrepareStopOffer", "score/mw/com/impl/bindings/lola/skeleton_event_common.h:SkeletonEventCommon::GetConsumerEventDataControlLocalView"]}
{"id": "C88", "title": "A service is offered entirely or not at all", "statement": "After a successful OfferService the service is announced, method calls are accepted and every event and field accepts samples; after a failed OfferService, and after StopOfferService, it is not announced, no method call is accepted and no event or field accepts samples. A refused second OfferService leaves the running service alone.", "quantifier": "all services, all points at which OfferService can fail, all histories of calls and interleavings with consumers' calls", "why_tests_cant": "There is one failure point per element and per step; the roll-back must be right for each of them and for every history before it.", "anchors": ["score/mw/com/impl/skeleton_base.cpp:SkeletonBase::OfferService", "score/mw/com/impl/skeleton_base.cpp:SkeletonBase::StopOfferService", "score/mw/com/impl/skeleton_field_base.h:SkeletonFieldBase::PrepareOffer", "score/mw/com/impl/skeleton_field.h:SkeletonFieldImpl::Update", "score/mw/com/impl/bindings/lola/skeleton.cpp:Skeleton::PrepareOffer", "score/mw/com/impl/bindings/lola/skeleton.cpp:Skeleton::PrepareStopOffer"]}
{"id": "C89", "title": "Samples given to the tracer stay until it has finished with them", "statement": "From the moment the tracer accepts a trace of a sent sample until it reports the trace done or the service is stopped, the provider keeps the sample's memory from being reused; afterwards the sample is released.", "quantifier": "all configurations of traced events and fields, any number of skeletons, all histories of creating, offering, stopping and sending, all answers of the tracer and the times at which it reports traces done", "why_tests_cant": "The sample's life depends on when a different component reports back, in every order and after every later offer and stop; the unit tests use one sample and a mocked tracer.", "anchors": ["score/mw/com/impl/tracing/tracing_runtime.cpp:TracingRuntime::Trace", "score/mw/com/impl/tracing/tracing_runtime.cpp:TracingRuntime::RegisterShmObject", "score/mw/com/impl/tracing/skeleton_tracing.cpp:TraceSend", "score/mw/com/impl/bindings/lola/tracing/tracing_runtime.cpp:TracingRuntime::EmplaceTypeErasedSamplePtr", "score/mw/com/impl/bindings/lola/tracing/tracing_runtime.cpp:TracingRuntime::ClearTypeErasedSamplePtr", "score/mw/com/impl/bindings/lola/tracing/tracing_runtime.cpp:TracingRuntime::RegisterServiceElement"]}
{"id": "C90", "title": "Traces in progress have different identifiers, and samples are dropped only when all slots are in use", "statement": "Any two traces the tracer is working on carry different context ids, so that a report of completion concerns exactly one sample; a sample is left out of the trace for lack of a slot only if all the slots configured for its event or field are in use.", "quantifier": "all configurations of traced events and fields, any number of skeletons, all histories of creating, offering, stopping and sending, all answers of the tracer and the times at which it reports traces done", "why_tests_cant": "Needs every combination of slots in use over all elements and all orders of reports.", "anchors": ["score/mw/com/impl/tracing/tracing_runtime.cpp:TracingRuntime::Trace", "score/mw/com/impl/tracing/tracing_runtime.cpp:TracingRuntime::RegisterShmObject", "score/mw/com/impl/tracing/skeleton_tracing.cpp:TraceSend", "score/mw/com/impl/bindings/lola/tracing/tracing_runtime.cpp:TracingRuntime::EmplaceTypeErasedSamplePtr", "score/mw/com/impl/bindings/lola/tracing/tracing_runtime.cpp:TracingRuntime::ClearTypeErasedSamplePtr", "score/mw/com/impl/bindings/lola/tracing/tracing_runtime.cpp:TracingRuntime::RegisterServiceElement"]}
{"id": "C91", "title": "Lost trace records are announced", "statement": "If a trace record could not be sent, the next record that is sent for the binding carries the data loss flag.", "quantifier": "all configurations of traced events and fields, any number of skeletons, all histories of creating, offering, stopping and sending, all answers of the tracer and the times at which it reports traces done, with trace calls of several threads overlapping", "why_tests_cant": "Depends on the interleaving of a failing and a succeeding trace call.", "anchors": ["score/mw/com/impl/tracing/tracing_runtime.cpp:TracingRuntime::Trace", "score/mw/com/impl/tracing/tracing_runtime.cpp:TracingRuntime::RegisterShmObject", "score/mw/com/impl/tracing/skeleton_tracing.cpp:TraceSend", "score/mw/com/impl/bindings/lola/tracing/tracing_runtime.cpp:TracingRuntime::EmplaceTypeErasedSamplePtr", "score/mw/com/impl/bindings/lola/tracing/tracing_runtime.cpp:TracingRuntime::ClearTypeErasedSamplePtr", "score/mw/com/impl/bindings/lola/tracing/tracing_runtime.cpp:TracingRuntime::RegisterServiceElement"]}
{"id": "C92", "title": "Tracing never ends the process", "statement": "Whatever the tracer answers, creating, offering, stopping and sending on services with trace points never fail an assertion or run into undefined behaviour because of tracing.", "quantifier": "all configurations of traced events and fields, any number of skeletons, all histories of creating, offering, stopping and sending, all answers of the tracer and the times at which it reports traces done, and restarts with a rollback of the crashed process's state that fails or succeeds", "why_tests_cant": "Each failing case needs a particular sequence of failed offers, refusals and restarts.", "anchors": ["score/mw/com/impl/tracing/tracing_runtime.cpp:TracingRuntime::Trace", "score/mw/com/impl/tracing/tracing_runtime.cpp:TracingRuntime::RegisterShmObject", "score/mw/com/impl/tracing/skeleton_tracing.cpp:TraceSend", "score/mw/com/impl/bindings/lola/tracing/tracing_runtime.cpp:TracingRuntime::EmplaceTypeErasedSamplePtr", "score/mw/com/impl/bindings/lola/tracing/tracing_runtime.cpp:TracingRuntime::ClearTypeErasedSamplePtr", "score/mw/com/impl/bindings/lola/tracing/tracing_runtime.cpp:TracingRuntime::RegisterServiceElement"]}
{"id": "C93", "title": "Traces refer to the memory of the current offer", "statement": "Every trace accepted by the tracer names the shared memory object registered by the offer under which the sample was sent; a registration that fails recoverably is tried again with the next trace.", "quantifier": "all configurations of traced events and fields, any number of skeletons, all histories of creating, offering, stopping and sending, all answers of the tracer and the times at which it reports traces done", "why_tests_cant": "Needs histories with failed and repeated offers.", "anchors": ["score/mw/com/impl/tracing/tracing_runtime.cpp:TracingRuntime::Trace", "score/mw/com/impl/tracing/tracing_runtime.cpp:TracingRuntime::RegisterShmObject", "score/mw/com/impl/tracing/skeleton_tracing.cpp:TraceSend", "score/mw/com/impl/bindings/lola/tracing/tracing_runtime.cpp:TracingRuntime::EmplaceTypeErasedSamplePtr", "score/mw/com/impl/bindings/lola/tracing/tracing_runtime.cpp:TracingRuntime::ClearTypeErasedSamplePtr", "score/mw/com/impl/bindings/lola/tracing/tracing_runtime.cpp:TracingRuntime::RegisterServiceElement"]}
{"id": "C95", "title": "Switching off tracing is final", "statement": "Once tracing has been switched off and the trace calls in progress have returned, the tracer is not called any more.", "quantifier": "all configurations of traced events and fields, any number of skeletons, all histories of creating, offering, stopping and sending, all answers of the tracer and the times at which it reports traces done, any point at which the tracer answers with a fatal error", "why_tests_cant": "Must hold for every later history.", "anchors": ["score/mw/com/impl/tracing/tracing_runtime.cpp:TracingRuntime::Trace", "score/mw/com/impl/tracing/tracing_runtime.cpp:TracingRuntime::RegisterShmObject", "score/mw/com/impl/tracing/skeleton_tracing.cpp:TraceSend", "score/mw/com/impl/bindings/lola/tracing/tracing_runtime.cpp:TracingRuntime::EmplaceTypeErasedSamplePtr", "score/mw/com/impl/bindings/lola/tracing/tracing_runtime.cpp:TracingRuntime::ClearTypeErasedSamplePtr", "score/mw/com/impl/bindings/lola/tracing/tracing_runtime.cpp:TracingRuntime::RegisterServiceElement"]}
{"id": "C96", "title": "Passing identifiers between processes as text", "statement": "The text of an instance identifier, given to another process, creates there an identifier that is equal to the original, has the same hash and names the same instance and settings; the receiving process's configuration gains exactly the entries of that service and instance.", "quantifier": "all deployments of a service instance and its type (any number of events, fields, methods and user lists, all optional settings), all configurations of the receiving process", "why_tests_cant": "The space of deployments and of receiving configurations is unbounded; tests serialise a few fixed deployments, mostly without tracing slots.", "anchors": ["score/mw/com/impl/instance_identifier.cpp:InstanceIdentifier::Create", "score/mw/com/impl/instance_identifier.cpp:InstanceIdentifier::ToString", "score/mw/com/impl/configuration/service_instance_deployment.cpp:ServiceInstanceDeployment::Serialize", "score/mw/com/impl/configuration/lola_service_instance_deployment.cpp:LolaServiceInstanceDeployment::Serialize", "score/mw/com/impl/configuration/lola_event_instance_deployment.cpp:LolaEventInstanceDeployment::Serialize", "score/mw/com/impl/configuration/configuration.cpp:Configuration::AddServiceInstanceDeployments"]}
{"id": "C97", "title": "Comparing and hashing identifiers and handles", "statement": "Equality of instance identifiers is an equivalence, equal identifiers and equal handles have equal hashes, and less-than is a strict weak order whose equivalence is equality, so identifiers and handles can be kept in ordered and unordered containers.", "quantifier": "all identifiers of all configurations, all triples of them, all handles found through a configuration", "why_tests_cant": "Transitivity and hash consistency range over all triples and pairs of identifiers.", "anchors": ["score/mw/com/impl/instance_identifier.cpp:operator==", "score/mw/com/impl/instance_identifier.cpp:operator<", "score/mw/com/impl/instance_identifier.h:hash", "score/mw/com/impl/handle_type.cpp:operator==", "score/mw/com/impl/handle_type.h:hash", "score/mw/com/impl/configuration/service_instance_deployment.cpp:operator<"]}
{"id": "C98", "title": "Creating identifiers from any string", "statement": "Creating an instance identifier from a string returns an error for every string that is not the text of an identifier and never ends the process; if it succeeds the identifier has the given text and its settings are found in the configuration, whose other entries are unchanged.", "quantifier": "all strings, all configurations, with and without an initialised runtime", "why_tests_cant": "The input is an arbitrary string from outside the process; tests try a few malformed ones.", "anchors": ["score/mw/com/impl/instance_identifier.cpp:InstanceIdentifier::Create", "score/mw/com/impl/configuration/configuration_common_resources.h:GetValueFromJson", "score/mw/com/impl/configuration/configuration.cpp:Configuration::AddServiceTypeDeployment"]}
{"id": "C102", "title": "When failing trace calls switch tracing off", "statement": "Failing trace calls switch tracing off exactly when an answer is fatal or when 2^32-1 calls in a row have failed without a fatal answer, a refused sample switches off at most the trace points of its own element, and nothing switches tracing on again.", "quantifier": "all configurations of traced events and fields, all histories of creating, offering, stopping, sending and tracing local data from any number of threads, all answers of the tracer", "why_tests_cant": "No test can make 2^32-1 calls fail in a row, nor try all histories in which accepted calls come in between.", "anchors": ["score/mw/com/impl/tracing/tracing_runtime.cpp:TracingRuntime::ProcessTraceCallResult", "score/mw/com/impl/tracing/tracing_runtime.h:MAX_CONSECUTIVE_ACCEPTABLE_TRACE_FAILURES", "score/mw/com/impl/tracing/skeleton_tracing.cpp:UpdateTracingDataFromTraceResult", "score/mw/com/impl/tracing/tracing_runtime.cpp:TracingRuntime::DisableTracing"]}
{"id": "C99", "title": "Adding a configuration", "statement": "Adding a second configuration succeeds exactly if no service type and no port is configured in both; afterwards every lookup gives what one of the two gave. If it fails, the configuration is unchanged.", "quantifier": "all pairs of configurations, with any number of earlier additions", "why_tests_cant": "Tests merge a few small configurations; the claim ranges over all of them and over repeated merges.", "anchors": ["score/mw/com/impl/configuration/configuration.cpp:Configuration::MergeServiceEntries", "score/mw/com/impl/configuration/configuration.cpp:Configuration::GetServiceTypeDeployment", "score/mw/com/impl/configuration/configuration.cpp:Configuration::GetServiceInstanceDeployment"]}
{"id": "C100", "title": "The configuration of a running process", "statement": "The configuration given at initialisation is the one in use; every port in it can be resolved to an identifier whose service type has the same binding and knows all its events and fields, and only an ASIL-B process has ASIL-B instances; a port once resolved is resolved the same for ever; add-on configurations are fully usable.", "quantifier": "all sequences of initialising, using the runtime, adding configurations and creating identifiers from strings, all configurations", "why_tests_cant": "Depends on the order of calls in the whole history of the process.", "anchors": ["score/mw/com/impl/runtime.cpp:Runtime::Initialize", "score/mw/com/impl/runtime.cpp:Runtime::InitializeRuntimeAddonConfiguration", "score/mw/com/impl/runtime.cpp:Runtime::getInstanceInternal", "score/mw/com/impl/runtime.cpp:Runtime::resolve", "score/mw/com/impl/configuration/configuration.cpp:Configuration::Validate", "score/mw/com/impl/plumbing/binding_runtime_factory.cpp:BindingRuntimeFactory::CreateBindingRuntimes"]}
{"id": "C101", "title": "Users that may exchange messages with a process", "statement": "A process exchanges messages exactly with the users that some configured instance allows for the quality level, or with everybody if some instance does not restrict its users.", "quantifier": "all valid configurations, all orders in which the instances are visited, all add-on configurations, all user ids", "why_tests_cant": "The result must not depend on the iteration order of an unordered map and ranges over all sets of instances.", "anchors": ["score/mw/com/impl/configuration/configuration.cpp:Configuration::GetAggregatedAllowedUsers", "score/mw/com/impl/bindings/lola/runtime.cpp:Runtime::Runtime", "score/mw/com/impl/bindings/lola/messaging/message_passing_service_instance.cpp:MessagePassingServiceInstance::MessagePassingServiceInstance"]}
{"id": "C94", "title": "The trace filter switches on exactly what is asked for", "statement": "After the trace filter file was read, a trace point of an event or field of an instance is on exactly when the file asks for it, the service type has that event or field and the instance is deployed with tracing slots for it. A file of the right shape is read without ending the process. The number of tracing slots set up is the sum of the slots of all traced events and fields, so each gets its slots.", "quantifier": "all configurations, all filter files, all trace points, service, element and instance names, and all orders in which hash maps are iterated", "why_tests_cant": "The answer depends on two files, several tables and the iteration order of hash maps; tests try a few files.", "anchors": ["score/mw/com/impl/tracing/configuration/tracing_filter_config.cpp:TracingFilterConfig::IsTracePointEnabled", "score/mw/com/impl/tracing/configuration/tracing_filter_config.cpp:TracingFilterConfig::GetNumberOfTracingSlots", "score/mw/com/impl/tracing/configuration/tracing_filter_config_parser.cpp:Parse", "score/mw/com/impl/configuration/tracing_configuration.cpp:TracingConfiguration::IsServiceElementTracingEnabled"]}
{"id": "C103", "title": "A configuration file is read as written", "statement": "Reading a configuration file gives exactly the service types, service instances, global and tracing properties that the file describes, with the documented defaults for what is missing; a file that describes none ends the process in a defined way; what was read is complete, its numbers fit and its keys and element ids are unique.", "quantifier": "every JSON value given as configuration file, of any size", "why_tests_cant": "A test reads a few files; the accepted and the refused files are infinitely many and depend on combinations of members, defaults and duplicates", "anchors": ["score/mw/com/impl/configuration/configuration_json_parsing_strategy.cpp:Parse", "score/mw/com/impl/configuration/config_validate.cpp:ValidateUniqueServiceElementIds", "score/mw/com/impl/configuration/mw_com_config_schema.json:properties"]}
{"id": "C104", "title": "Arguments and result of a method call arrive unchanged", "statement": "When a consumer calls a method, the handler of the provider is given exactly the argument values of the call, in order, and the pointer the caller gets designates exactly the value the handler produced, for every signature; no byte of shared memory outside the slot of this call changes. Storage for the arguments is laid out so that each argument is aligned, inside the slot and disjoint from the others.", "quantifier": "every list of argument types and result type (sizes and alignments), queue size and position, argument values, handler, contents of shared memory and addresses at which the two processes map it", "why_tests_cant": "The places of arguments are computed from addresses, separately in both processes; tests use a few signatures and one mapping.", "anchors": ["score/mw/com/impl/util/type_erased_storage.h:CreateDataTypeSizeInfoFromTypes,DeserializeArgs,SerializeArgs", "score/mw/com/impl/bindings/lola/methods/type_erased_call_queue.cpp:GetElement,AllocateQueue", "score/mw/com/impl/methods/skeleton_method.h:RegisterHandlerImpl", "score/mw/com/impl/methods/proxy_method_with_in_args_and_return.h:operator()"]}
{"id": "C105", "title": "Pointers to arguments and results keep their slot of the call queue to themselves", "statement": "Two live pointers never refer to the same argument or result; a result is not overwritten and prepared arguments are not changed while their pointers are held, whatever other calls are made; a call with pointers gives the handler the values they designate; Allocate and calls report a full queue exactly when a live pointer refers to each slot, and pointers that were destroyed, used up by a call or belong to failed calls free their slot.", "quantifier": "every sequence of Allocate, writing through pointers, moving and destroying pointers, zero-copy calls and copying calls with any outcome, on any number of methods of any signatures and any queue size", "why_tests_cant": "The life of pointers is up to the user program; tests try a few orders of moves, calls and destruction.", "anchors": ["score/mw/com/impl/methods/method_signature_element_ptr.h:MethodSignatureElementPtr", "score/mw/com/impl/methods/proxy_method.h:DetermineNextAvailableQueueSlot,AllocateImpl,GetCommonQueuePosition", "score/mw/com/impl/methods/proxy_method_with_in_args_and_return.h:operator()", "score/mw/com/impl/methods/proxy_method_with_return_type.h:operator()"]}
{"id": "C106", "title": "Memory for control data and methods is large enough", "statement": "Whatever the configuration and the types of arguments and results, the shared memory created for the control data of a service (size calculated by analysis or simulation) and for the methods of a proxy is large enough for everything placed in it, and everything is placed inside it, aligned and without overlap; neither provider nor consumer is ended by a failed allocation.", "quantifier": "all numbers of events, fields, slots, subscribers and methods; all sizes and alignments of types; any mapping address; any additional size", "why_tests_cant": "the calculation mirrors the order of allocations by hand; tests compare a few configurations only", "anchors": ["score/mw/com/impl/bindings/lola/service_data_control.cpp:CalculateServiceDataControlShmSize", "score/mw/com/impl/bindings/lola/skeleton_memory_manager.cpp:CalculateControlShmResourceStorageSize", "score/mw/com/impl/bindings/lola/transaction_log_set.cpp:TransactionLogSet", "score/mw/com/impl/bindings/lola/proxy.cpp:CalculateRequiredShmSize,InitializeSharedMemoryForMethods"]}
{"id": "C107", "title": "A sample lies where provider and consumer look for it", "statement": "Whether provider and consumer know the type of an event or only its size (generic), every slot handed out by the provider is read by every consumer at the same place of the shared memory, in whatever address range each maps it; slots lie inside the event's storage, do not overlap and are aligned; a consumer whose type has another size or alignment never reads a sample; a provider that restarts on the memory of its predecessor uses the same places.", "quantifier": "all types, sizes, alignments, slot numbers, mapping addresses, kinds of provider and consumer, and restarts", "why_tests_cant": "four combinations of address calculations must agree for every size and slot; tests use a few types mapped in one process", "anchors": ["score/mw/com/impl/bindings/lola/skeleton_event.h:Allocate", "score/mw/com/impl/bindings/lola/generic_skeleton_event.cpp:Allocate", "score/mw/com/impl/bindings/lola/proxy_event.h:InitialiseEventSlotsRawArray,GetNewSamplesImpl", "score/mw/com/impl/bindings/lola/generic_proxy_event.cpp:GetNewSamplesImpl", "score/mw/com/impl/bindings/lola/skeleton_memory_manager.cpp:CreateGenericEventDataInCreatedSharedMemory,RetrieveGenericEventDataFromOpenedSharedMemory", "score/mw/com/impl/data_type_meta_info.cpp:MakeDataTypeSizeInfo"]}
{"id": "C108", "title": "Moving a proxy or skeleton changes nothing but its place", "statement": "Move-constructing, move-assigning and swapping proxies and skeletons, generated or generic, in any order, mixed with offering, subscribing, sending, receiving and handlers, is invisible to everyone else: the service, its subscriptions, handlers and samples go on under the new variable; a service ends exactly when the variable holding it is destroyed or gets another value; then it is withdrawn exactly once and nothing is heard of it again.", "quantifier": "all histories of creating, moving, assigning, swapping, destroying and using any number of proxy and skeleton objects", "why_tests_cant": "the number of histories of moves is unbounded, each object and each of its elements is reachable through several pointers that every move must update, and a missed one shows only in later operations", "anchors": ["score/mw/com/impl/skeleton_base.cpp:SkeletonBase", "score/mw/com/impl/proxy_base.cpp:ProxyBase", "score/mw/com/impl/traits.h:SkeletonWrapperClass", "score/mw/com/impl/reference_to_moveable.h:ReferenceToMoveable", "score/mw/com/impl/generic_skeleton.h:GenericSkeleton", "score/mw/com/impl/tracing/proxy_event_tracing.cpp:CreateTracingReceiveHandler"]}
{"id": "C109", "title": "The message server keeps the documented life of connections", "statement": "Whatever clients and callbacks do, on any number of servers sharing an engine: the connect callback of a connection is called once, its messages are handed over only after acceptance, in the order in which the client sent them, none left out or repeated, the disconnect callback is called once, and nothing is seen after it; what is sent on a connection reaches its client, in order, and nobody else; StopListening returns, and then all connections of the server are gone and its descriptors closed; no use of a destroyed connection, no abnormal end.", "quantifier": "all histories of clients (connect, send, part of a message, close), callbacks (send, disconnect any connection, accept or reject, return an error), other threads, and engine schedules, for any number of servers and connections", "why_tests_cant": "the engine's vectors of endpoints change while it iterates over them and callbacks re-enter it; the set of interleavings of clients, callbacks, stops and polls is infinite", "anchors": ["score/message_passing/unix_domain/unix_domain_server.cpp:UnixDomainServer,ServerConnection", "score/message_passing/unix_domain/unix_domain_engine.cpp:UnixDomainEngine", "score/message_passing/dependability/software_architectural_design/client-server.md:thread safety"]}
{"id": "C110", "title": "Setting, getting and updating a field from any threads", "statement": "A consumer's Set that succeeds answers the requested value as the provider's set handler left it, and makes exactly this the field's value during the call; a failed Set or Update changes nothing. A Get answers a value the field had during the call, and only values the provider has let in. Sets, Gets and Updates never terminate the provider, whatever a consumer does to its own memory; the set handler runs at most once at a time.", "quantifier": "all numbers of slots, set handlers, initial values; all interleavings, access by access, of any number of Sets, Gets and Updates by any agents with subscribers taking and releasing samples and with consumers writing the memory of their own calls at any time", "why_tests_cant": "Unit tests call Set, Get and Update one after the other on mocked bindings. The failures need a preemption between the two halves of an increment, a consumer changing shared memory between validation and use, or several values sent during one search.", "anchors": ["score/mw/com/impl/skeleton_field.h:RegisterSetHandler", "score/mw/com/impl/skeleton_field.h:RegisterGetHandler", "score/mw/com/impl/skeleton_field.h:Update", "score/mw/com/impl/bindings/lola/skeleton_event.h:GetLatestSample", "score/mw/com/impl/bindings/lola/skeleton_event_common.h:Send", "score/mw/com/impl/bindings/lola/consumer_event_data_control_local_view.cpp:ReferenceNextEvent", "score/mw/com/impl/bindings/lola/provider_event_data_control_local_view.cpp:FindOldestUnusedSlot"]}
{"id": "C111", "title": "Shared-memory handles of one process", "statement": "Whatever threads create, open, remove, clean up and drop shared memory: all handles to a path share one mapping of the object linked there, mapped as asked and owned by an allowed user; memory to which a handle exists stays registered, so containers and pointers in it work; the registry never names unmapped memory; nothing stays mapped after the last handle; and no call terminates the process or blocks for ever.", "quantifier": "every number of threads, paths and handles, every interleaving of factory calls, handle drops and other processes' creating and unlinking", "why_tests_cant": "the failures need a drop, a Remove or a failing Open at one particular moment between two steps of another thread", "anchors": ["score/memory/shared/shared_memory_factory_impl.cpp:Open,Create,CreateOrOpen,Remove,RemoveStaleArtefacts", "score/memory/shared/shared_memory_resource.cpp:~SharedMemoryResource,mapMemoryIntoProcess", "score/memory/shared/memory_resource_registry.cpp:insert_resource,remove_resource,at"]}
{"id": "C112", "title": "Searching for services from any thread never blocks for ever, and a handler lives exactly as long as it may be called", "statement": "StartFindService and StopFindService may be called from any thread, from within find-service handlers and from destructors: no set of threads ever waits for each other for ever, and every waiting thread waits for one that can go on. A handler is never destroyed while it runs, is destroyed exactly once, runs on one thread at a time and is not re-entered. When StopFindService returns to application code, the handler is destroyed and is never called again; a search that was started and not stopped keeps getting its calls; a failed StartFindService destroys the handler without calling it.", "quantifier": "All interleavings of the worker thread and any number of application threads, any nesting of calls from handlers and destructors, any outcome of the crawl, known and unknown instance specifiers.", "why_tests_cant": "A deadlock needs two threads at two particular points, and the lifetime depends on who drops the last reference; tests run a few schedules.", "anchors": ["score/mw/com/impl/service_discovery.cpp:ServiceDiscovery::StartFindService", "score/mw/com/impl/service_discovery.cpp:ServiceDiscovery::StopFindService", "score/mw/com/impl/service_discovery.cpp:ServiceDiscovery::BindingSpecificStartFindService", "score/mw/com/impl/bindings/lola/service_discovery/client/service_discovery_client.cpp:ServiceDiscoveryClient::StartFindService", "score/mw/com/impl/bindings/lola/service_discovery/client/service_discovery_client.cpp:ServiceDiscoveryClient::StopFindService", "score/mw/com/impl/bindings/lola/service_discovery/client/service_discovery_client.cpp:ServiceDiscoveryClient::CallHandlers"]}
{"id": "C113", "title": "A container in shared memory gets its memory from the region it lives in", "statement": "Whatever other processes have written to a shared-memory region, a container that lives in it and allocates through its allocator gets blocks of exactly n * sizeof(T) bytes, aligned for T, inside the region that holds the container's memory-resource proxy; a proxy whose name is unknown or names another region ends the process instead; an honest proxy is served as long as the block fits; deallocation touches no foreign memory.", "quantifier": "all regions, identifiers, contents of the shared memory, changes by other processes at any time, threads, sizes, alignments, and interleavings with mapping and unmapping", "why_tests_cant": "the property is about values another process may write between any two reads, and about all addresses at which regions can be mapped relative to each other", "anchors": ["score/memory/shared/memory_resource_proxy.cpp:MemoryResourceProxy::allocate", "score/memory/shared/memory_resource_proxy.cpp:MemoryResourceProxy::PerformBoundsCheck", "score/memory/shared/polymorphic_offset_ptr_allocator.h:PolymorphicOffsetPtrAllocator::allocate", "score/memory/shared/memory_resource_registry.cpp:MemoryResourceRegistry::at", "score/memory/shared/new_delete_delegate_resource.cpp:NewDeleteDelegateMemoryResource"]}
{"id": "C114", "title": "Messages of a QNX server reach the client", "statement": "On QNX, every message a server accepts with Reply or Notify on a connection reaches the connected client exactly once, unchanged, in the order of acceptance, and without need of a later message; Notify answers exactly too long, no buffer, or accepted; no behaviour of the other side makes server or client touch memory outside of a message; a wake-up goes to the connection it was meant for.", "quantifier": "all configurations, sequences of Reply and Notify from any thread, interleavings with the registration of the client, request patterns of the client, size fields of received messages, and histories of connections opened and closed in one client", "why_tests_cant": "the losses depend on how sends interleave with the registration, on hostile peers and on counters that wrap around after 65536 connections", "anchors": ["score/message_passing/qnx_dispatch/qnx_dispatch_server.cpp:QnxDispatchServer::ServerConnection::Notify", "score/message_passing/qnx_dispatch/qnx_dispatch_server.cpp:QnxDispatchServer::ServerConnection::Reply", "score/message_passing/qnx_dispatch/qnx_dispatch_server.cpp:QnxDispatchServer::ServerConnection::ProcessReadRequest", "score/message_passing/qnx_dispatch/qnx_dispatch_engine.cpp:QnxDispatchEngine::io_msg", "score/message_passing/qnx_dispatch/qnx_dispatch_engine.cpp:QnxDispatchEngine::io_write", "score/message_passing/qnx_dispatch/qnx_dispatch_engine.cpp:QnxDispatchEngine::RegisterPosixEndpoint", "score/message_passing/qnx_dispatch/qnx_dispatch_engine.cpp:QnxDispatchEngine::SelectPulseCallback"]}
{"id": "C115", "title": "Receiving samples through the Rust interface", "statement": "A consumer using the Rust interface gets each published sample at most once and in order, never holds more than it subscribed for; a successful try_receive or receive reports exactly the new samples that are then at the end of the container; a pending receive or stream is woken when samples arrive, can be cancelled and leaves the subscription usable; calls within the documented rules do not panic, and samples cannot outlive the subscription.", "quantifier": "all subscribed sizes and container capacities, all interleavings of publications, notifications, losses, polls, cancellations, drops, stream use and try_receive calls, and all failures of the native calls", "why_tests_cant": "samples get lost only when they arrive in particular batches between polls, and wake-ups only at particular interleavings; single-poll tests with a mock do not show them", "anchors": ["score/mw/com/impl/rust/com-api/com-api-runtime-lola/consumer.rs:try_receive_samples", "score/mw/com/impl/rust/com-api/com-api-runtime-lola/consumer.rs:create_sample_callback", "score/mw/com/impl/rust/com-api/com-api-runtime-lola/consumer.rs:ReceiveFuture", "score/mw/com/impl/rust/com-api/com-api-runtime-lola/consumer.rs:SampleStream", "score/mw/com/impl/rust/com-api/com-api-runtime-lola/consumer.rs:LolaSubscriberImpl", "score/mw/com/rust/score_com_concept/concept.rs:Subscription", "score/mw/com/impl/proxy_event.h:ProxyEvent::GetNewSamples", "score/mw/com/impl/proxy_event_base.cpp:ProxyEventBase::Unsubscribe"]}
{"id": "C116", "title": "Asynchronous discovery through the Rust interface", "statement": "The future of get_available_instances_async resolves with the instances that are available, with an empty result if there are none; it is woken when instances are found; when the future resolves or is dropped the search ends exactly once and its memory is given back; a failed start is reported as an error.", "quantifier": "all interleavings of offers and withdrawals, handler calls, polls and drops of the future at any point, and all failures to start", "why_tests_cant": "the leak needs a future dropped before its first poll, and lost wake-ups need particular interleavings of handler and poll", "anchors": ["score/mw/com/impl/rust/com-api/com-api-runtime-lola/consumer.rs:get_available_instances_async", "score/mw/com/impl/rust/com-api/com-api-runtime-lola/consumer.rs:ServiceDiscoveryFuture", "score/mw/com/impl/rust/com-api/com-api-ffi-lola/bridge_ffi.rs:NativeFindServiceHandle", "score/mw/com/impl/rust/com-api/com-api-ffi-lola/registry_bridge_macro.cpp:mw_com_start_find_service", "score/mw/com/impl/rust/com-api/com-api-ffi-lola/registry_bridge_macro.cpp:mw_com_stop_find_service", "score/mw/com/impl/rust/com-api/com-api-ffi-lola/registry_bridge_macro.h:RustBoxedCallable"]}
{"id": "C117", "title": "Queued commands on QNX run without further events", "statement": "On QNX the background thread of message passing wakes up for every queued command shortly after its due time, without any further event; commands run in order, never early and at most once; CleanUpOwner returns, and afterwards no earlier command of that owner runs; stopping the engine ends the thread and nothing runs afterwards.", "quantifier": "every history of registrations, clean-ups from any thread, passing time, lost pulses and stops; all due times and clock values", "why_tests_cant": "the failing cases need the due time to pass between two readings of the clock, a full pulse pool, or two clean-ups of one owner at the same time; durations and interleavings are unbounded", "anchors": ["score/message_passing/qnx_dispatch/qnx_dispatch_engine.cpp:QnxDispatchEngine::ProcessTimerQueue", "score/message_passing/qnx_dispatch/qnx_dispatch_engine.cpp:QnxDispatchEngine::CleanUpOwner", "score/message_passing/qnx_dispatch/dispatch_thread_runner.cpp:DispatchThreadRunner::Stop", "score/message_passing/timed_command_queue.cpp:TimedCommandQueue::ProcessQueue"]}
{"id": "C118", "title": "Waiting for the background thread", "statement": "A thread that waits for a reply (SendWaitReply) or for a clean-up on QNX returns once its own result is complete and never before, with exactly that result, although all waiting threads share one mutex and one condition variable; no wake-up is lost, no deadlock arises, and the background thread never touches the local variables of a function that has returned.", "quantifier": "every number of waiting threads, every interleaving of waiting and marking threads, spurious wake-ups, and functions that give up without a wait", "why_tests_cant": "needs the memory of a returned function to be reused between two instructions of another thread; interleavings and numbers of threads are unbounded", "anchors": ["score/message_passing/non_allocating_future/non_allocating_future.h:NonAllocatingFuture", "score/message_passing/client_connection.cpp:ClientConnection::SendWaitReply", "score/message_passing/qnx_dispatch/qnx_dispatch_engine.cpp:QnxDispatchEngine::CleanUpOwner"]}
{"id": "C119", "title": "A sending event knows exactly how many of its samples are outstanding", "statement": "For every sending event, the number of samples handed out by Allocate and not yet sent or destroyed is known exactly: moving a sample object changes no count, assigning over one releases exactly the overwritten sample, assigning a sample to itself changes nothing, and no sample is released twice. Destroying an event terminates the process exactly if one of its samples is still outstanding, so that a sample that exists never refers to an event that does not.", "quantifier": "all histories of allocations, move constructions, move assignments (also to itself), destructions of sample objects and destructions of events, over any number of events and samples, in every order of the threads' operations", "why_tests_cant": "a test moves a few samples of one event around; the count must be right after every history of moves and destructions over all events and threads", "anchors": ["score/mw/com/impl/sample_allocatee_guard.cpp:SampleAllocateeGuard::operator=", "score/mw/com/impl/sample_allocatee_guard.cpp:SampleAllocateeGuard::Deallocate", "score/mw/com/impl/sample_allocatee_tracker.cpp:SampleAllocateeTracker::Allocate", "score/mw/com/impl/sample_allocatee_tracker.cpp:SampleAllocateeTracker::~SampleAllocateeTracker", "score/mw/com/impl/plumbing/sample_allocatee_ptr.h:SampleAllocateePtr::Swap", "score/mw/com/impl/plumbing/sample_allocatee_ptr.h:SampleAllocateePtr::reset"]}
