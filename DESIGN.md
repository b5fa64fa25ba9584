# Formal model of eclipse-score/communication in Rocq

## Approach

The model is a set of small executable Gallina functions and small-step machines under `rocq/theories`. Each area has

* `<Area>Model.v` - definitions only, each with a comment citing file and lines in /repo and naming what is simplified,
* `<Area>Proofs.v`, `<Area>Inv.v`, ... - lemmas (in smaller areas they stand in the Props file),
* `<Area>Props.v` - the specification vocabulary (which does not use the model's helpers where it can avoid it), the
  property theorems named `Cnn_...`, beside them `Example`s that meet their hypotheses, and `Print Assumptions`.

Conventions

* 16/32/64 bit words are `N` with the wrap-around written explicitly (`mod 2^k`); signed words are `Z`. Container sizes,
  indices and fuel are `nat`.
* `std::terminate`, violated assertions and undefined behaviour are explicit outcomes, never silently totalised.
* Concurrency: sequentially consistent interleaving of the individual atomic accesses (or of blocks under one mutex). A
  thread is a program counter with its local variables, a schedule is an arbitrary list of choices, of any length.
  `compare_exchange_weak` may fail spuriously where the code uses it. A crash removes a thread between any two accesses;
  shared memory and files stay.
* Where the full property is false of the code, `..._refuted` proves the existence of a concrete counterexample in the
  model, and `..._partial` the largest true part found; the missing part is named in the comment and in the list below.
* Environment conditions are predicates on runs (`reach ok s`), so that the theorem's statement shows them, and each has
  an example run.

## Trusted base

* Coq 8.16.1's kernel, including the VM for `vm_compute` on concrete witnesses.
* `Print Assumptions` answers "Closed under the global context" for every theorem listed below. The seven axioms that a
  scan of all loaded modules finds (`Coq.ssr.ssrunder.Under_rel.*`) belong to Coq's own `ssreflect` library, where they
  are the fields of an opaque module signature; no theorem here depends on them. No axiom, parameter, admitted proof,
  functor or module type is declared in this development.
* The reading of the C++ code: the model is written by hand from the cited lines. Nothing was compiled or run.


## Properties: what is modelled, how it is proved, what is missing

### C01 Exclusive slot ownership

* Model: EventModel.v: interleaving machine over slot words, sample storage, one provider, any number of consumers with transaction logs, crashes and restarts. Proof: inductive invariant: a word is IN_WRITING iff the provider owns the slot and nobody references it.
* Status: **proved**. Theorems: `C01_allocated_has_no_reader`, `C01_allocate_returns_free_slot`, `C05_held_sample_was_published`.
* Any number of slots and consumers, one provider thread (documented assumption of use), all crashes; fewer than 2^32-1 consumers and Send calls.

### C02 Sample stability

* Model: EventModel.v: interleaving machine over slot words, sample storage, one provider, any number of consumers with transaction logs, crashes and restarts. Proof: invariant: storage of a referenced slot equals the sample published in it; two states of a run are compared.
* Status: **proved**. Theorems: `C02_held_sample_never_changes`, `C05_held_sample_was_published`.

### C03 Reference counts are exact

* Model: EventModel.v: interleaving machine over slot words, sample storage, one provider, any number of consumers with transaction logs, crashes and restarts. Proof: invariant: reference count equals number of holders (pointers and log entries in transit).
* Status: **proved**. Theorems: `C03_refcount_exact`, `C03_unavailable_has_no_reader`, `C03_quiescent_slot_is_free`, `C04_sequence_numbers_ordered`.

### C04 Ordered, duplicate-free delivery

* Model: EventModel.v: interleaving machine over slot words, sample storage, one provider, any number of consumers with transaction logs, crashes and restarts. Proof: invariant over the history of deliveries of a consumer (strictly increasing sequence numbers).
* Status: **proved**. Theorems: `C04_delivery_in_order_no_duplicates`, `C04_sequence_numbers_ordered`, `C05_delivery_hands_out_a_published_sample`.

### C05 Only published samples are delivered

* Model: EventModel.v: interleaving machine over slot words, sample storage, one provider, any number of consumers with transaction logs, crashes and restarts. Proof: ghost set of published samples, invariant.
* Status: **proved**. Theorems: `C05_held_sample_was_published`, `C05_delivery_hands_out_a_published_sample`.

### C06 GetNewSamples returns the newest unseen samples

* Model: SlotModel.v: the scan and collection functions of a consumer over any slot array. Proof: functional correctness against a filter/sort specification, induction over the array; hypotheses shown reachable in EventModel.
* Status: **proved**. Theorems: `C06_get_new_samples_delivers_newest_unseen`, `C06_hypotheses_hold_when_reachable`, `C06_undisturbed_call_delivers_newest`, `C06_resubscription_receives_everything`.
* Sequential function and the event machine: a call during which nobody else moves, from any reachable state.

### C07 Allocation reuses the oldest free slot

* Model: SlotModel.v: AllocateNextSlot's scan. Proof: functional correctness against 'unused or oldest free'.
* Status: **proved**. Theorems: `C07_allocate_takes_unused_or_oldest_free`, `C07_allocate_fails_only_without_free_slot`, `C07_undisturbed_allocate_succeeds`, `C07_undisturbed_allocate_fails_without_free_slot`, `C07_allocate_gives_up_only_after_101_attempts`.
* Sequential function and the event machine; the last theorem covers interfering schedules.

### C08 History depth

* Model: HistModel.v: a provider alone on an event. Proof: refinement to a bounded queue, induction over calls.
* Status: **proved**. Theorems: `C08_history_is_bounded_queue`, `C08_history_depth`.
* With interleaved discards the exact claim is the bounded queue: an allocation without a free slot drops the oldest sample even if it is later discarded.

### C09 Provider restart keeps published samples and order (single quality)

* Model: EventModel.v: interleaving machine over slot words, sample storage, one provider, any number of consumers with transaction logs, crashes and restarts. Proof: invariant preserved by the restart; witness run for the refuted part.
* Status: **partial**. Theorems: `C09_sent_samples_survive_restart`, `C09_restart_frees_half_written_slots`, `C09_send_is_newer_than_available_partial`, `C09_newer_than_everything_refuted`.
* Published samples survive and half-written slots are freed. 'Newer than everything sent before' is false of the code (refuted by a witness): only newer than every sample still available is proved.

### C10 Provider restart of an ASIL-B/QM event

* Model: CompositeModel.v: two control arrays over one slot array, arbitrary writes by the QM side, crash and restart. Proof: invariant over schedules whose crashes avoid the two windows; witness runs.
* Status: **partial**. Theorems: `C10_restart_never_terminates_partial`, `C10_qualities_agree_partial`, `C10_restart_refuted`, `C10_restart_refuted_allocation`, `C10_reoffer_after_disconnect_refuted`.
* Refuted for crashes between the updates of the two controls and for a re-offer after QM was disconnected; proved for every schedule (any number of crashes and restarts) whose crashes are outside these windows.

### C11 QM consumers cannot disturb ASIL-B consumers

* Model: CompositeModel.v: two control arrays over one slot array, arbitrary writes by the QM side, crash and restart. Proof: invariant on the ASIL-B side only, under arbitrary QM writes.
* Status: **proved**. Theorems: `C11_read_samples_stable`, `C11_reference_count_exact`, `C11_disconnected_independent_of_qm`, `C11_allocation_returns_slot`.
* For arbitrary writes of the QM side at every step, up to 2^32-2 publications. Termination of the provider by its own assertion is the separate property C57.

### C12 Consumer crash rollback is exact

* Model: EventModel.v: interleaving machine over slot words, sample storage, one provider, any number of consumers with transaction logs, crashes and restarts; SubModel.v for the subscription. Proof: invariant: log bits equal references held.
* Status: **proved**. Theorems: `C12_rollback_leaves_nothing`, `C12_rollback_fails_only_on_half_transaction`, `C12_rollback_completes`, `C03_refcount_exact`, `C12_subscription_rollback_exact`, `C12_subscription_rollback_error_only_in_call`.
* slot references in the event machine, the subscription itself in the subscription machine.

### C13 Rollback covers every log of the application

* Model: LogSetModel.v. Proof: list induction over the logs; witness for two logs.
* Status: **partial**. Theorems: `C13_one_call_partial`, `C13_as_many_calls_as_logs_partial`, `C13_result`, `C13_others_untouched`, `C13_all_logs_refuted`, `C13_free_logs_are_empty`, `C13_logs_are_kept`, `C13_registration`.
* one call rolls back exactly one log; as many calls as stale logs give back everything; the property as documented (all logs in one call) is refuted; what is left behind is usable: a log without owner records nothing, logs are never lost, subscribing never aborts.

### C14 Subscription limits

* Model: SubModel.v: packed 32 bit counter, compare-exchange loops, crashes, rollback. Proof: invariant: counters equal sums over subscribers and calls in progress.
* Status: **proved**. Theorems: `C14_limits`, `C14_counters_exact`, `C14_counters_exact_quiet`, `C14_subscribe_within_limits_succeeds`, `C14_subscribe_too_many_samples`, `C14_subscribe_too_many_subscribers`.
* for any interleaving of any number of consumers with crashes, rollbacks and spurious CAS failures; max_subscribers <= 255, slots < 2^16; the three C14_subscribe theorems: after any such history a call that nobody disturbs succeeds exactly when the limits allow it, and fails without a trace otherwise.

### C15 Unsubscribe gives back exactly what Subscribe took

* Model: SubModel.v. Proof: same invariant; schedule of lost compare-exchanges as witness.
* Status: **partial**. Theorems: `C15_all_gone`, `C15_unsubscribe_gives_back`, `C15_terminates_only_on_retries_partial`, `C15_unsubscribe_retries_refuted`.
* counters are given back exactly and underflow checks are never violated; the claim that no legal history terminates Unsubscribe is false: 3*max_subscribers lost compare-exchanges terminate it (refuted with a schedule).

### C16 Subscription state machine

* Model: ProxyModel.v: proxy event and subscription state machine. Proof: refinement to an abstract three-state machine, induction over calls.
* Status: **proved**. Theorems: `C16_state_is_documented`, `C16_samples_only_while_subscribed`, `C16_survives_provider_restart`, `C16_termination`, `C16_samples_in_hand`, `C16_nothing_without_subscription`.
* C16_termination lists exactly the calls that terminate the process, among them a second 'provider gone' report while pending; C16_samples_in_hand gives the exact number of samples delivered from the history.

### C17 A removed receive handler is not called again

* Model: ProxyModel.v. Proof: invariant on the handler in effect; witness runs.
* Status: **partial**. Theorems: `C17_only_handler_in_effect_is_called_partial`, `C17_handler_in_effect_is_called`, `C17_registration_stays_refuted`, `C17_foreign_unsubscribe_refuted`.
* a removed handler is never called; but the registration with the provider stays if the handler is removed while the provider is away (refuted), and Unsubscribe from another event's handler does not remove a pending handler (refuted).

### C18 Subscribe rejects or accepts, never aborts

* Model: ProxyModel.v, SubModel.v. Proof: case analysis; witness Subscribe(0).
* Status: **partial**. Theorems: `C18_subscribe_returns_partial`, `C18_subscribe_never_terminates`, `C18_subscribe_zero_refuted`.
* holds for 1..255; Subscribe(0) terminates (refuted).

### C19 Sample bookkeeping never aborts a consumer

* Model: EventModel.v: interleaving machine over slot words, sample storage, one provider, any number of consumers with transaction logs, crashes and restarts. Proof: explicit 'violated precondition' outcome proved unreachable.
* Status: **proved**. Theorems: `C19_no_precondition_violated`, `C19_wait_has_cause`.
* The bounded wait (10 x 10ms) before a reference transaction is modelled as a blocking wait; C19_wait_has_cause shows what it waits for.

### C20 Field getter and tracing coexist

* Model: ProviderModel.v: allocated samples, Send, tracing, getter. Proof: exact condition by case analysis; witness.
* Status: **partial**. Theorems: `C20_getter_aborts_exactly_if_traced_partial`, `C20_getter_returns_newest`, `C20_only_aborts`, `C20_refuted`.
* The statement is false of the code: a getter call while the newest sample is held by tracing terminates (C20_refuted). Proved: exactly when it happens, and the result otherwise.

### C21 Unlimited number of sends

* Model: HistModel.v. Proof: induction below the wrap; witness at the wrap.
* Status: **partial**. Theorems: `C21_sends_below_wrap_partial`, `C21_unlimited_refuted`.
* Holds below 2^32-1 sends; refuted at 2^32-1.

### C22 Sample count limit per subscription

* Model: TrackerModel.v: counter, guards and SamplePtrs of any number of threads. Proof: sum invariant over threads and pointers.
* Status: **partial**. Theorems: `C22_limit`, `C22_free_count`, `C22_assertion_never_fails`, `C22_release_frees_one`, `C22_reserves_what_is_free`, `C22_unsubscribe`, `C22_samples_kept_partial`, `C22_samples_kept_refuted`.
* proved for the SamplePtrs the user holds; false for the samples kept from reuse: the destructor returns the reference before it releases the slot.

### C23 Application to process mapping

* Model: PidMapModel.v: lock-free table, any number of processes, crashes. Proof: invariant: one entry per application id.
* Status: **partial**. Theorems: `C23_key_round_trip`, `C23_one_entry_per_application`, `C23_returns_previous`, `C23_others_unaffected`, `C23_fails_only_if_full_partial`, `C23_fails_only_if_full_refuted`, `C23_shared_application_id_refuted`.
* Proved for every interleaving of any number of processes with crashes, provided at most one process per application id registers at a time. The 'fails only when full' part is false when compare_exchange_weak fails spuriously 50 times per scan (refutation) and proved otherwise. Two processes sharing an application id get two entries (refutation).

### C24 LinearSearchMap is a map

* Model: MapModel.v. Proof: refinement to a finite map, induction over calls.
* Status: **proved**. Theorems: `C24_is_a_map`, `C24_one_value_per_key`, `C24_elements_stay`, `C24_empty`.
* For every key type, equivalence, capacity and call sequence. NonRelocatableVector is external and taken by its documented behaviour.

### C25 Allocated samples are released exactly once

* Model: ProviderModel.v. Proof: ownership invariant over histories.
* Status: **proved**. Theorems: `C25_one_owner`, `C25_allocate`, `C25_send`, `C25_give_back`, `C25_moves`, `C25_accounting`.
* For all histories in which no allocated sample is held at StopOfferService (see C60 for the others).

### C26 Aligned size computation

* Model: AllocModel.v: size calculations. Proof: arithmetic for all 64 bit values.
* Status: **proved**. Theorems: `C26_smallest_multiple`, `C26_when_it_terminates`.
* never undefined; terminates instead of wrapping; for powers of two only if no multiple fits in 64 bit.

### C27 Analytic shared-memory size is exact

* Model: AllocModel.v. Proof: induction over the sequence.
* Status: **proved**. Theorems: `C27_exact`.
* for power of two alignments that divide the start address; sequences of any length.

### C28 Shared-memory allocations are disjoint, aligned and inside the region

* Model: AllocModel.v: bump allocator, processes with different mappings. Proof: interleaving invariant (blocks disjoint, below the counter).
* Status: **proved**. Theorems: `C28_inside_and_aligned`, `C28_disjoint`, `C28_aligned_in_every_process`, `C28_blocks_stay`, `C28_fits`.
* every interleaving of any number of processes mapping the region at different addresses, spurious CAS failures and crashes; std::align by specification.

### C29 Calculated shared-memory size suffices for the service

* Model: AllocModel.v: estimation and simulation. Proof: monotonicity of the bump allocator; witnesses.
* Status: **partial**. Theorems: `C29_simulation_suffices_partial`, `C29_estimation_suffices_partial`, `C29_estimation_getter_refuted`, `C29_estimation_generic_refuted`, `C29_simulation_overaligned_refuted`.
* full statement is false: estimation forgets getter/setter slots and generic padding; simulation uses a page aligned base, so over-aligned sample types may not fit.

### C30 OffsetPtr access is bounds checked

* Model: OffsetPtrModel.v. Proof: case analysis over 64 bit arithmetic.
* Status: **partial**. Theorems: `C30_in_shared_memory`, `C30_dereference`, `C30_index`, `C30_stack_copies`, `C30_valid_access_succeeds`, `C30_get_defined`, `C30_index_terminates_refuted`, `C30_index_defined_partial`, `C30_index_undefined_exactly_on_overflow`.
* Every pointer handed out lies inside the region, for every offset, also through chains of stack copies; valid accesses succeed. operator[] overflows a signed addition (undefined behaviour) before the check for hostile offsets: refuted with a witness, partial theorem for non-overflowing offsets.

### C31 Copying an OffsetPtr keeps its target

* Model: OffsetPtrModel.v. Proof: case analysis, induction over chains of copies.
* Status: **proved**. Theorems: `C31_copy_keeps_target`, `C31_copy_succeeds`, `C31_raw_round_trip`, `C31_chain_of_copies`, `C30_stack_copies`.
* Copies succeed whenever the distance fits 64 bits and the target is not inside the copy itself.

### C32 A null OffsetPtr reads as null

* Model: OffsetPtrModel.v. Proof: case analysis; witness.
* Status: **partial**. Theorems: `C32_null_reads_as_null_partial`, `C32_null_reads_as_null_refuted`, `C32_never_non_null`.
* False near the end of a region: the bounds check is applied to the null representation.

### C33 Swapping OffsetPtrs keeps their protection

* Model: OffsetPtrModel.v. Proof: case analysis; witness.
* Status: **partial**. Theorems: `C33_swap_exchanges_targets`, `C33_keeps_protection_partial`, `C33_keeps_protection_refuted`.
* Targets are exchanged; the left pointer loses its recorded bounds when it is outside shared memory.

### C34 OffsetPtr arithmetic

* Model: OffsetPtrModel.v. Proof: exactness of checked arithmetic; witness.
* Status: **partial**. Theorems: `C34_addition_exact`, `C34_subtraction_exact`, `C34_agrees_with_raw_pointers_partial`, `C34_agrees_with_raw_pointers_refuted`, `C34_difference`, `C34_difference_never_wrong`, `C34_comparisons`.
* Exact or terminating for all 64 bit values. Refuted only where the result is the byte after the pointer's own address, whose offset is the null representation.

### C35 Pointer difference is exact

* Model: OffsetPtrModel.v. Proof: complete case analysis.
* Status: **proved**. Theorems: `C35_difference_exact`.
* Complete characterisation for all pairs of 64 bit addresses.

### C36 Region lookup

* Model: RegionModel.v. Proof: invariant (sorted, disjoint), induction over registrations; witness.
* Status: **partial**. Theorems: `C36_known_regions`, `C36_lookup_finds_the_region`, `C36_lookup_result_partial`, `C36_address_after_the_end`, `C36_nothing_if_in_none_refuted`, `C36_when_registration_terminates`, `C36_registration_result`.
* Regions stay disjoint and a contained address is found. Refuted as stated: the address one past the end of a region is reported as inside it.

### C37 Region lookup under concurrent change

* Model: RegionVerModel.v: one writer, any number of lock-free readers. Proof: interleaving invariant on versions and reader counts.
* Status: **proved**. Theorems: `C37_never_torn`, `C37_lookup_sees_a_complete_set`, `C37_stable_while_evaluated`, `C37_completed_operations_are_seen`.
* One writer, any number of readers, every interleaving of atomic accesses; reference counts are 32 bit; sequentially consistent memory.

### C38 Gateway message round trip

* Model: GwCodecModel.v (byte-exact encoder and decoder), GwFramerModel.v. Proof: round trip by induction over messages.
* Status: **proved**. Theorems: `C38_encoder_stays_in_buffer`, `C38_round_trip`, `C38_too_small`.
* Every message body, buffer and trailing data; strings non-empty and without NUL (the rest is C40).

### C39 Gateway decoder is safe on arbitrary input

* Model: GwCodecModel.v (byte-exact encoder and decoder), GwFramerModel.v. Proof: out-of-bounds outcome unreachable for all bytes and segmentations.
* Status: **proved**. Theorems: `C39_decoder_is_safe`, `C39_framer_is_safe`.
* Arbitrary bytes, any segmentation of recv(); also shows what is accepted is the encoding of the result. A header with payload size 0 is accepted as a message with empty strings (C39_empty_payload_example).

### C40 Gateway messages survive the wire for all values

* Model: GwCodecModel.v (byte-exact encoder and decoder), GwFramerModel.v. Proof: exact characterisation of messages that arrive; witnesses.
* Status: **partial**. Theorems: `C40_arrives_partial`, `C40_empty_name_refuted`, `C40_many_elements_refuted`, `C40_event_names_refuted`.
* Exact characterisation of the messages that arrive. False in general: empty strings, strings with NUL and messages over 1024 bytes are lost, and EventInfo is sent as raw bytes holding a pointer to its name.

### C41 Gateway framing is independent of segmentation

* Model: GwFramerModel.v with send/recv oracles. Proof: induction over the stream; witness.
* Status: **partial**. Theorems: `C41_stream`, `C41_everything_arrives`, `C41_prefix`, `C41_interrupted_send_refuted`.
* For every segmentation, cut point and receive error; holds as long as sends do not fail. After a send that fails half way the request is sent again on the same connection and the receiver delivers a message nobody sent.

### C42 Request acknowledgement

* Model: GwReqModel.v: threads sending requests, receive thread. Proof: trace invariant.
* Status: **proved**. Theorems: `C42_success_means_acknowledged`, `C42_own_sequence_number`, `C42_entry_stays`, `C42_only_own_acknowledgement`, `C42_acknowledged_wins`, `C42_shared_number_refuted`.
* Success implies acknowledgement for every run; distinct sequence numbers need that fewer than 2^32 requests begin while one is in progress (without that: C42_shared_number_refuted).

### C43 Gateway application survives service churn

* Model: GwAppModel.v. Proof: invariant over callbacks; witnesses.
* Status: **partial**. Theorems: `C43_survives_partial`, `C43_disappearing_kills`, `C43_transport_failure_refuted`, `C43_remote_element_type_refuted`.
* Survives every history in which services disappear only after a successful propagation and the peer speaks of events only. Otherwise false: a service that disappears after its propagation failed terminates the gateway, as does a peer message with another element type.

### C44 Reply callbacks are called exactly once

* Model: MpClientModel.v: user threads, engine thread, send queue, pending replies, stop and restart. Proof: trace invariant under stated environment conditions; witnesses.
* Status: **partial**. Theorems: `C44_at_most_once_partial`, `C44_exactly_once_partial`, `C44_refused_never_called_partial`, `C44_own_reply_partial`, `C44_stop_race_refuted`, `C44_unsolicited_reply_refuted`.
* Proved for every configuration, thread count, interleaving, transmission outcome and stop/restart history under three stated environment conditions (server answers only received requests; no SendWaitReply/late async send in flight at teardown; debug assertion condition). Without them false: the two refutations give runs.

### C45 Queued messages keep their order

* Model: MpClientModel.v: user threads, engine thread, send queue, pending replies, stop and restart. Proof: order invariant.
* Status: **partial**. Theorems: `C45_order_partial`, `C45_complete_partial`, `C45_unsolicited_reply_refuted`.
* Order and completeness for fully ordered or truly asynchronous clients, same environment conditions as C44; refuted for a server that sends unsolicited replies.

### C46 Queue capacity survives a restart

* Model: MpClientModel.v: user threads, engine thread, send queue, pending replies, stop and restart. Proof: conservation of queue elements; witness.
* Status: **partial**. Theorems: `C46_capacity_partial`, `C46_restart_refuted`.
* In every run the capacity is what is configured minus the messages discarded by stops; the full claim (capacity restored after restart) is refuted by an orderly run.

### C47 No callback into a finished SendWaitReply

* Model: MpClientModel.v: user threads, engine thread, send queue, pending replies, stop and restart. Proof: trace invariant; witness.
* Status: **partial**. Theorems: `C47_no_late_callback_partial`, `C47_returns_after_callback_partial`, `C47_stop_race_refuted`.
* Holds under the environment conditions of C44; refuted when SendWaitReply is transmitting during teardown.

### C48 Timed command queue order

* Model: TimedQueueModel.v. Proof: log-positional invariant (sorted, stable, exactly once).
* Status: **proved**. Theorems: `C48_order`, `C48_exactly_once`, `C48_only_registered`, `C48_cleanup_only_own`, `C48_cleanup_all_own`, `C48_result`, `C48_null_owner_refuted`, `C48_concurrent_cleanup_refuted`.
* Every interleaving of registrations, processing and clean-ups interrupted by registrations. Findings: cleaning the null owner removes commands although the documentation excludes it; concurrent clean-ups of one owner: the second waits for ever.

### C49 Unix-domain message framing

* Model: MpFrameModel.v with sendmsg/recvmsg oracles. Proof: round trip by induction; witnesses.
* Status: **partial**. Theorems: `C49_roundtrip_partial`, `C49_buffer_safe`, `C49_large_message_refuted`, `C49_large_buffer_refuted`, `C49_short_send_refuted`, `C49_short_header_refuted`, `C49_success_means_sent_partial`.
* Round trip for all message sequences when every registered size is below 65536 and the socket calls are not cut short; false otherwise (four refutations). The receive buffer is never exceeded, for every stream.

### C50 Instance specifier syntax

* Model: NamesModel.v. Proof: equivalence with a grammar for all byte strings.
* Status: **proved**. Theorems: `C50_specifier_grammar`.
* for all byte strings; grammar specified separately.

### C51 Shared memory in use is never destroyed or recreated

* Model: ShmLifeModel.v: provider and consumer processes, marker files, flock, unlink. Proof: invariant over interleavings; witness.
* Status: **partial**. Theorems: `C51_in_use_not_removed_partial`, `C51_in_use_kept_partial`, `C51_same_object_partial`, `C51_decides_removal_when_unused`, `C51_removal_complete`, `C51_removal_proceeds`, `C51_attach_race_refuted`.
* Proved for all interleavings in which a consumer's window between opening the marker file and locking it does not overlap the provider's window between locking and unlinking it, and creation does not overlap destruction of another provider; without the first condition refuted (C51_attach_race_refuted).

### C52 Single provider per service instance

* Model: ShmLifeModel.v. Proof: same; witnesses.
* Status: **partial**. Theorems: `C52_single_provider_partial`, `C52_second_creation_fails_partial`, `C52_two_providers_refuted`, `C52_both_offer_refuted`.
* Proved when creating a provider does not overlap destroying one; without that refuted: the existence marker is unlinked after being unlocked by path, so two providers can hold it and both offer.

### C53 Error codes survive serialization

* Model: ErrorCodeModel.v. Proof: exhaustive over both domains.
* Status: **proved**. Theorems: `C53_round_trip`, `C53_distinct`, `C53_domain`, `C53_other_domain_refuted`.
* both error domains; the refuted theorem shows codes of one domain read in the other are misread or abort.

### C54 Shared-memory ids and names are unique

* Model: NamesModel.v. Proof: injectivity of the encodings.
* Status: **proved**. Theorems: `C54_resource_ids_unique`, `C54_names_unique`, `C54_never_the_sentinel_refuted`.
* identifiers and all file names; the refuted theorem: service 0 instance 0 gets the identifier reserved for 'no resource' in the size simulation.

### C55 Consumer access rights

* Model: AccessModel.v. Proof: case analysis over configurations; witnesses.
* Status: **partial**. Theorems: `C55_no_more_than_documented`, `C55_strict`, `C55_documented_can_attach_partial`, `C55_methods_partial`, `C55_provider_partial`, `C55_omitted_list_refuted`, `C55_umask_refuted`, `C55_methods_empty_list_refuted`, `C55_empty_provider_list_refuted`.
* the safety direction and strict mode hold for every configuration; that every documented user can attach is false for an omitted list next to a configured one, for a restrictive umask, for methods with an empty list, and for an empty provider list.

### C56 QM consumers of an ASIL-B provider keep their samples

* Model: CompositeModel.v: two control arrays over one slot array, arbitrary writes by the QM side, crash and restart. Proof: invariant while connected; witness.
* Status: **partial**. Theorems: `C56_qm_sample_stable_while_connected_partial`, `C56_qm_sample_overwritten_refuted`.
* Refuted after the provider has given up on the QM control; proved while QM is connected.

### C57 QM memory content cannot terminate the ASIL-B provider

* Model: CompositeModel.v: two control arrays over one slot array, arbitrary writes by the QM side, crash and restart. Proof: witness.
* Status: **partial**. Theorems: `C57_qm_write_terminates_provider_refuted`, `C10_restart_never_terminates_partial`.
* Refuted: one QM write with another time stamp terminates the provider. Proved only for QM sides that do not write on their own.

### C58 Ending a subscription waits for its receive handler

* Model: ProxyModel.v. Proof: invariant; witness.
* Status: **partial**. Theorems: `C58_unsubscribe_waits_for_handler_partial`, `C58_no_active_handler_after_unsubscribe`, `C58_unsubscribe_blocks_while_handler_active`, `C58_foreign_unsubscribe_refuted`.
* holds outside of receive handlers, with active handlers counted from the history; false when called from the receive handler of another event.

### C59 Creating a further proxy never rolls back a live subscription

* Model: LogSetModel.v. Proof: case analysis on log states.
* Status: **proved**. Theorems: `C59_live_subscriptions_survive_proxy_creation`.

### C60 Allocated samples survive stopping and re-offering the service safely

* Model: ProviderModel.v. Proof: ownership invariant; witnesses.
* Status: **partial**. Theorems: `C60_sample_ownership_across_reoffer_refuted`, `C60_destruction_while_not_offered_refuted`, `C60_exclusive_across_reoffer_partial`.
* False of the code in general; holds if no sample is held at each stop.

### C61 Allocation never leaves the region

* Model: AllocModel.v. Proof: arithmetic; witness.
* Status: **partial**. Theorems: `C61_partial`, `C61_corrupted_counter_refuted`.
* false if the counter lies beyond the end of the region; proved for every counter within the region.

### C62 A SamplePtr that is not null keeps its sample

* Model: TrackerModel.v. Proof: invariant; witness.
* Status: **partial**. Theorems: `C62_owner_is_not_null`, `C62_not_null_owns_partial`, `C62_not_null_owns_refuted`.
* false for the source of a move assignment.

### C63 Acknowledged gateway requests are executed

* Model: GwReqModel.v with both sides. Proof: trace invariant over channel, acknowledgements and queue; retry bound in GwRetryProps.v.
* Status: **partial**. Theorems: `C63_acknowledged_is_received`, `C63_in_order`, `C63_once_refuted`, `C63_sent_at_most_five_times`, `C63_not_connected_only_if_lost`.
* Received at least once and in order per thread; not at most once: a late acknowledgement makes the request be sent and executed again. Failing sends put nothing on the connection in this model (see C41).

### C64 Gateway update forwarding follows subscriptions

* Model: GwAppModel.v. Proof: induction over histories; witnesses.
* Status: **partial**. Theorems: `C64_follows_subscriptions_partial`, `C64_provide_repairs`, `C64_failed_request_refuted`, `C64_failed_unregister_refuted`.
* Holds if the requests are acknowledged; a failed request is not repeated until the service is provided anew.

### C65 Gateway tables are accessed race-free

* Model: GwAppModel.v: table of accesses and locks. Proof: case analysis over pairs of callbacks; witness.
* Status: **partial**. Theorems: `C65_local_callbacks_partial`, `C65_remote_requests_refuted`.
* Discovery and event callbacks hold the mutex; requests of the other gateway are handled without it. The access table is written from the code by hand.

### C66 A client connection never aborts the process

* Model: MpClientModel.v: user threads, engine thread, send queue, pending replies, stop and restart. Proof: abort outcomes unreachable under the conditions; one witness per condition.
* Status: **partial**. Theorems: `C66_no_abort_partial`, `C66_unsolicited_reply_refuted`, `C66_late_senders_refuted`, `C66_debug_assertion_refuted`.
* Holds under the environment conditions of C44; each condition is necessary: one refuting run each.

### C67 Due commands are executed without further events

* Model: TimedQueueModel.v: engine thread, poll, pipe, clock. Proof: invariant on the sleep deadline; constructed continuation that executes the command.
* Status: **partial**. Theorems: `C67_wakes_up_partial`, `C67_overdue_refuted`, `C67_due_command_runs_partial`.
* Proved while no command is more than 2 ms overdue when the poll timeout is computed; without that the timeout is negative and the sleep unlimited (refuted).

### C68 Send notifies when a receive handler is registered

* Model: NotifyModel.v: registration calls step by step. Proof: flag invariant; witness interleavings.
* Status: **partial**. Theorems: `C68_send_notifies_partial`, `C68_no_needless_notification_partial`, `C68_local_race_refuted`, `C68_remote_race_refuted`, `C68_not_repaired_refuted`, `C68_outdated_message_refuted`.
* Proved when calls that take a registration away do not overlap with other calls (no lost handler) resp. one call at a time (no needless notification); false for overlapping removals: a stale callback(false) overwrites the flag for good.

### C69 A notification reaches every registered handler and process once

* Model: NotifyModel.v: copying of process ids in rounds, changing sets. Proof: induction over rounds; witnesses.
* Status: **partial**. Theorems: `C69_remote_exact`, `C69_remote_processes_partial`, `C69_local_handlers_partial`, `C69_at_most_five`, `C69_sixth_handler_refuted`, `C69_beyond_the_limit`, `C69_many_processes_refuted`.
* Remote: exact up to 5100 processes and under concurrent changes; local: only the first five handlers of an event are called, the sixth never is.

### C70 Offering again never terminates the provider

* Model: ShmLifeModel.v. Proof: abort outcome unreachable under the condition; witnesses.
* Status: **partial**. Theorems: `C70_offer_survives_partial`, `C70_reoffer_aborts_refuted`, `C70_retry_aborts_refuted`, `C70_offer_fails_refuted`.
* Proved for histories in which no StopOffer keeps the memory because a consumer uses it; otherwise refuted: offer, consumer attaches, stop, consumer detaches, offer terminates the provider; so does retrying an offer that failed after creating memory.

### C71 Shared memory is never handed out before it is initialised

* Model: ShmOpenModel.v: create, open, clean up under a lock file, crashes. Proof: invariant; witnesses.
* Status: **partial**. Theorems: `C71_mapped_is_initialised_partial`, `C71_one_at_a_time_partial`, `C71_overlapping_cleanup_refuted`, `C71_death_while_cleaning_refuted`.
* Proved for all schedules and crashes if RemoveStaleArtefacts does not overlap Create or Open and is not itself interrupted; refuted otherwise, even when no two calls overlap (creator dies initialising, next provider dies between the two unlinks).

### C72 The death of one process does not keep another from opening shared memory

* Model: ShmOpenModel.v. Proof: bounded progress; witness.
* Status: **partial**. Theorems: `C72_lock_is_released_partial`, `C72_orphan_blocks`, `C72_death_spreads_refuted`.
* False of the code: a consumer dying inside Open leaves the lock file and every later Open terminates its process until RemoveStaleArtefacts runs. Proved: without a death inside a call the lock file has a live owner that releases it within three steps.

### C73 A method call runs on the calling proxy's own memory

* Model: MethodModel.v. Proof: invariant relating registered handlers to the history; witnesses.
* Status: **partial**. Theorems: `C73_call_runs_partial`, `C73_only_for_subscribers`, `C73_not_subscribed`, `C73_shared_application_id_refuted`, `C73_reused_pid_refuted`, `C73_not_offered`, `C73_not_allowed`, `C73_cannot_open`, `C73_other_user`.
* Who can have a handler run, and that nothing runs without a lasting subscription, hold for all histories. That calls run on the caller's own region holds when consumers of one application id are successive processes with fresh process ids; refuted for two processes sharing an application id and for a reused process id.

### C74 Consumers cannot terminate the provider through methods

* Model: MethodModel.v. Proof: abort outcomes unreachable for well-behaved consumers; witnesses.
* Status: **partial**. Theorems: `C74_no_abort_partial`, `C74_unknown_method_refuted`, `C74_same_method_twice_refuted`, `C74_queue_position_refuted`, `C74_shared_application_id_refuted`, `C74_stale_handler_refuted`.
* Holds for well-behaved consumers (known methods, each once, positions inside the queue, fresh process ids, one process per application id at a time). Refuted otherwise: the provider trusts region content and queue position, a failed opening with a shared application id leads to an assertion, and a restarted consumer enabling fewer methods leaves handlers on unmapped memory.

### C75 Service searches end up telling what is offered

* Model: SdModel.v: flag files, directories, inotify queue, searches, worker. Proof: invariant relating reported and offered instances; settling by a progress argument; witness.
* Status: **partial**. Theorems: `C75_accurate_partial`, `C75_settles_partial`, `C75_offer_and_withdraw_refuted`.
* Holds if no batch of events read from the kernel holds the creation of a flag file followed by its removal; otherwise refuted: removals of a batch are handled before its creations, so the search reports for ever an instance nobody offers. A flag file stands for an offer: those left by a crashed provider count as offered.

### C76 A find handler is called only when its list changed

* Model: SdModel.v. Proof: log-positional invariant.
* Status: **proved**. Theorems: `C76_only_changes`, `C76_only_wanted`, `C76_in_turns`.
* No condition on the runs.

### C77 No handler call after StopFindService

* Model: SdModel.v. Proof: log-positional invariant.
* Status: **proved**. Theorems: `C77_no_call_after_stop`.
* The stop is called for a handle that StartFindService gave out; handler calls hold the client's lock.

### C78 FindService lists what is offered while it runs

* Model: SdModel.v. Proof: trace of flag file states during the call.
* Status: **proved**. Theorems: `C78_offered_throughout_found`, `C78_found_was_offered`.
* Reading the list of instance directories is one step; a flag file stands for an offer.

### C79 Service discovery never terminates the consumer

* Model: SdModel.v. Proof: abort outcome unreachable; witness.
* Status: **partial**. Theorems: `C79_no_abort_partial`, `C79_crawl_failure_refuted`.
* Holds if watching the directory of a new instance does not fail in all retries; otherwise refuted, the assertion in OnInstanceDirectoryCreated terminates the consumer. Overflow of the kernel's queue and removal of directories by others, both answered by termination, are not modelled.

### C80 Availability changes never terminate a proxy

* Model: SdModel.v with the proxy's availability handler. Proof: consequence of C76 for the proxy's state.
* Status: **proved**. Theorems: `C80_proxy_never_aborts`.
* Offer state tracking only; what the events do with the notification is C16.

### C81 The provider knows which processes want to be notified

* Model: RemoteRegModel.v: the proxies of one event in one process (subscription state, stored handler, registration, provider pid), the process-wide NodeCounter with its std::uint16_t count, queued register/unregister messages per call, and the table of the provider's process. Proof: Invariant relating the count to the number of registered proxies per provider process, by induction over histories; user-level state (subscribed, has a handler) is recomputed from the history.
* Status: **partial**. Theorems: `C81_handler_known_partial`, `C81_no_stale_interest_partial`, `C81_never_terminated_partial`, `C81_replaced_while_pending_refuted`, `C81_removed_before_all_told_refuted`, `C81_message_lost_refuted`, `C81_overlapping_calls_refuted`, `C81_missed_restart_refuted`, `C81_same_pid_refuted`, `C81_stale_interest_refuted`, `C81_unset_while_pending_refuted`, `C81_many_reoffers_refuted`.
* Proved for histories in which calls do not overlap, messages arrive, handlers are not replaced or removed while the subscription is pending or before all proxies have been told of a new provider, and service discovery reports every stop and start; each condition has a refuting run.

### C82 QM consumers are dropped only as a last resort

* Model: CompositeModel.v: the allocation loop over both control blocks. Proof: Undisturbed call: constructed run of the scan; arbitrary schedule: counting of the attempts (at_some over the schedule).
* Status: **proved**. Theorems: `C82_undisturbed_allocate_serves_both`, `C82_qm_dropped_only_after_100_attempts`.
* first theorem: no other party moves during the call; second: any schedule of the call.

### C83 Messages between processes are understood as meant and received bytes are harmless

* Model: MsgModel.v: byte layout of all seven messages and of the reply, reading of arbitrary bytes, effect of a notification on the tables of one process, handling of a request with reply, reading of the reply. Proof: field-wise round trip of little-endian integers; case analysis over arbitrary byte strings.
* Status: **partial**. Theorems: `C83_notes_are_understood`, `C83_requests_are_understood`, `C83_messages_fit`, `C83_which_notes`, `C83_caller_learns_the_outcome`, `C83_requests_do_not_terminate`, `C83_connection_kept_partial`, `C83_reason_refuted`, `C83_request_during_teardown_refuted`, `C83_codes_survive`, `C83_reply_terminates_caller`, `C83_reply_refuted`, `C83_caller_safe`, `C83_others_registrations_kept_partial`, `C83_own_registration`, `C83_handlers_called`, `C83_status_right_partial`, `C83_malformed_ignored`, `C83_notes_terminate`, `C83_outdated_refuted`.
* Proved: every message round-trips for all field values and padding; outcome, termination and effect of arbitrary received bytes. False as stated: an Outdated message removes another process's registrations; a request during teardown of the messaging terminates the process; a four-byte reply outside 0..7 terminates the caller; failing to open the consumer's memory is reported as a wrong message size and drops the connection.

### C84 Restarts of consumers keep the provider's registrations right

* Model: RestartModel.v: consumer processes, the application-to-process map in the instance's memory, messages under way per connection, the provider's table for one event. Proof: inductive invariant over histories (fold of a process's own messages under way); refuting runs.
* Status: **partial**. Theorems: `C84_live_process_partial`, `C84_predecessors_forgotten_partial`, `C84_table_is_the_providers`, `C84_reused_pid_refuted`, `C84_shared_application_id_refuted`, `C84_same_pid_refuted`, `C84_late_registration_refuted`, `C84_crash_during_restart_refuted`, `C84_orderly_runs_refuted`.
* Proved if process ids are not reused and an application has one process at a time; for dead processes also that messages of dead processes are gone when the successor creates its first proxy and that the successor lives until its message arrived. False otherwise: refuting runs for each condition.

### C85 Sending to another process returns, and reaches a process that listens

* Model: CacheModel.v: the connection cache with its mutex, connections' states, the engine's command queue, the threads inside the cache. Proof: inductive invariant over all interleavings; progress by constructed continuations of at most nine steps; deadlock by an invariant kept by every continuation.
* Status: **partial**. Theorems: `C85_send_returns_partial`, `C85_listening_process_reached_partial`, `C85_never_terminates`, `C85_dead_process_costs_a_timeout_each`, `C85_send_from_handler_lost`, `C85_send_from_handler_waits`, `C85_deadlock_refuted`, `C85_send_from_handler_refuted`.
* Proved for user threads while the messaging thread itself neither sends nor drops connections. Refuted in general: an outdated message handled while a thread replaces a connection to the same dead process deadlocks all messaging of the process; a message sent from a handler without a ready connection is always lost after the timeout.

### C86 An offered field always has its current value

* Model: OfferModel.v: the provider's skeleton with any number of events and fields, OfferService and StopOfferService in small steps, consumers' Get and Set in between, the memory, the usage marker, discovery. Proof: inductive invariants over all interleavings; for the exact result of the first OfferService a constructed continuation by induction over the elements; refuting runs.
* Status: **partial**. Theorems: `C86_offered_has_value`, `C86_value_missing`, `C86_first_offer_exact`, `C86_get_current_partial`, `C86_offered_again_refuted`, `C86_retry_loses_value_refuted`.
* What OfferService requires is proved in every environment. That Get answers the current value is proved while every later OfferService finds a consumer still attached; refuted otherwise: after stop and offer, and after a failed and repeated OfferService, a field has lost its value.

### C87 Offering and stopping never terminate the provider

* Model: OfferModel.v: the provider's skeleton with any number of events and fields, OfferService and StopOfferService in small steps, consumers' Get and Set in between, the memory, the usage marker, discovery. Proof: inductive invariant; one refuting run for each condition that is dropped.
* Status: **partial**. Theorems: `C87_keeps_running_partial`, `C87_get_while_stopping_refuted`, `C87_offer_twice_refuted`, `C87_offer_after_consumer_left_refuted`, `C87_stop_after_offer_twice_refuted`, `C87_retry_undefined_refuted`, `C87_again_partial`.
* Proved when consumers' calls are executed only while the service is announced, OfferService is not called while offered, and a consumer is attached at every OfferService after the first. Refuted without each of these. C87_again_partial: also for retries and later offers while no consumer is attached.

### C88 A service is offered entirely or not at all

* Model: OfferModel.v: the provider's skeleton with any number of events and fields, OfferService and StopOfferService in small steps, consumers' Get and Set in between, the memory, the usage marker, discovery. Proof: inductive invariant with the list of roll-back guards; refuting runs.
* Status: **partial**. Theorems: `C88_all_or_nothing_partial`, `C88_failed_offer_leaves_field_refuted`, `C88_offer_twice_refuted`, `C88_memory_partial`.
* Proved for every failure point except the sending of a field's first value, and for OfferService not called while the service is offered; refuted for these two.

### C89 Samples given to the tracer stay until it has finished with them

* Model: TraceModel.v: skeletons with traced events and fields, construction, OfferService, StopOfferService, sends in small steps, the slots for samples given to the tracer, the registered shared memory objects, the tracer's answers and reports. Proof: inductive invariant relating slots, calls in progress and the history.
* Status: **partial**. Theorems: `C89_held_partial`, `C89_released`, `C89_late_report_refuted`.
* Held: proved if the tracer has reported a service's traces before the service is offered again. Released afterwards: proved for all runs. Without the condition refuted: a late report releases a sample of the next offer.

### C90 Traces in progress have different identifiers, and samples are dropped only when all slots are in use

* Model: TraceModel.v: skeletons with traced events and fields, construction, OfferService, StopOfferService, sends in small steps, the slots for samples given to the tracer, the registered shared memory objects, the tracer's answers and reports. Proof: inductive invariant; for dropped samples a count of the slots in use.
* Status: **partial**. Theorems: `C90_dropped_only_when_full`, `C90_ids_distinct_partial`, `C90_same_id_refuted`.
* Dropped only when full: proved for all runs. Distinct ids: same condition as C89, refuted without it.

### C91 Lost trace records are announced

* Model: TraceModel.v: skeletons with traced events and fields, construction, OfferService, StopOfferService, sends in small steps, the slots for samples given to the tracer, the registered shared memory objects, the tracer's answers and reports. Proof: position of events in the history, invariant for runs without overlap; refuting run.
* Status: **partial**. Theorems: `C91_loss_announced_partial`, `C91_loss_not_announced_refuted`.
* Proved if trace calls do not overlap; refuted for overlapping calls.

### C92 Tracing never ends the process

* Model: TraceModel.v: skeletons with traced events and fields, construction, OfferService, StopOfferService, sends in small steps, the slots for samples given to the tracer, the registered shared memory objects, the tracer's answers and reports. Proof: inductive invariant over calm histories; one refuting run for each condition that is dropped.
* Status: **partial**. Theorems: `C92_keeps_running_partial`, `C92_offer_after_failed_offer_refuted`, `C92_recoverable_twice_refuted`, `C92_skeleton_again_refuted`, `C92_send_after_off_refuted`, `C92_fatal_registration_refuted`, `C92_failed_rollback_refuted`, `C92_rollback_without_tracing_refuted`, `C92_refused_then_new_skeleton_refuted`.
* Proved for histories without the listed conditions (definition calm) and enough slots; one refuting run for each condition.

### C93 Traces refer to the memory of the current offer

* Model: TraceModel.v: skeletons with traced events and fields, construction, OfferService, StopOfferService, sends in small steps, the slots for samples given to the tracer, the registered shared memory objects, the tracer's answers and reports. Proof: inductive invariant over calm histories; refuting runs.
* Status: **partial**. Theorems: `C93_current_memory_partial`, `C93_never_retried`, `C93_old_memory_refuted`, `C93_retry_refuted`.
* Current memory: proved for calm histories, refuted after a failed offer. Retry: refuted; proved that without an element of the reserved name the retry never happens.

### C95 Switching off tracing is final

* Model: TraceModel.v: skeletons with traced events and fields, construction, OfferService, StopOfferService, sends in small steps, the slots for samples given to the tracer, the registered shared memory objects, the tracer's answers and reports. Proof: invariant over the events after switching off.
* Status: **proved**. Theorems: `C95_off_is_final`.
* All runs.

### C96 Passing identifiers between processes as text

* Model: DeplModel.v: the settings of services and instances with their JSON writing, reading and comparing; ConfModel.v: the configuration's lookups and additions, identifiers and handles. Proof: round trip of each writer and reader by induction over the maps; refuting deployments and general refutations.
* Status: **partial**. Theorems: `C96_content_partial`, `C96_round_trip_partial`, `C96_tracing_refuted`, `C96_same_process_refuted`, `C96_twice_refuted`.
* The round trip is proved for every well-formed deployment without tracing slots and every receiver that knows neither the service nor the instance; with tracing slots the slots are lost and the identifiers differ; in a process that has the service configured, or on a second creation, the process ends.

### C97 Comparing and hashing identifiers and handles

* Model: DeplModel.v: the settings of services and instances with their JSON writing, reading and comparing; ConfModel.v: the configuration's lookups and additions, identifiers and handles. Proof: equality reduced to equality of finite maps; order by cases over service, binding and level; refuting configurations that pass validation.
* Status: **partial**. Theorems: `C97_equality_partial`, `C97_hash_partial`, `C97_hash_refuted`, `C97_order_partial`, `C97_order_refuted`, `C97_equivalent_partial`, `C97_equivalent_refuted`, `C97_handle_hash_partial`, `C97_handle_distinct_partial`, `C97_type_equality_partial`, `C97_compatible_partial`, `C97_compatible_transitive_refuted`, `C97_handle_order_partial`.
* Equality is an equivalence and less-than a strict order for all identifiers. Hash consistency fails for two ports of one instance and is proved for the same port; the strict weak order fails when one instance has two different settings and is proved when service and instance id determine the settings. Compatibility is characterised; it is not transitive.

### C98 Creating identifiers from any string

* Model: DeplModel.v: the settings of services and instances with their JSON writing, reading and comparing; ConfModel.v: the configuration's lookups and additions, identifiers and handles. Proof: case analysis of the creation; refuting texts.
* Status: **partial**. Theorems: `C98_result_partial`, `C98_instance_read_partial`, `C98_type_read_partial`, `C98_index_range_partial`, `C98_terminates_refuted`, `C98_undefined_refuted`.
* Every result is characterised, and which JSON objects are read as which settings (iff a description of the object). Objects with missing or wrong members end the process or, in a release build, read past the end of a map; which of the two a refused object does is not characterised.

### C102 When failing trace calls switch tracing off

* Model: TraceModel.v: evaluation of the tracer's answers (ProcessTraceCallResult) by every thread that sends or traces. Proof: the counter equals the failures in a row, by induction over histories with their answers; the bound is reached by a constructed history.
* Status: **proved**. Theorems: `C102_on`, `C102_answer`, `C102_other`, `C102_points`, `C102_recoverable_refuted`.
* Proved in full; C102_recoverable_refuted records that recoverable failures count too, although the threshold is documented for non-recoverable ones. The counter is not wrapped: it could only wrap after tracing is off.

### C99 Adding a configuration

* Model: ConfModel.v: lookups, merging, validation, allowed users, and the runtime's life as a sequence of calls. Proof: lookups in generations reduced to lookups in the flattened maps.
* Status: **partial**. Theorems: `C99_succeeds`, `C99_contents`, `C99_failed_partial`, `C99_failed_refuted`.
* Success and its result are proved in full; a failure because of an instance leaves the new types behind, everything else is unchanged.

### C100 The configuration of a running process

* Model: ConfModel.v: lookups, merging, validation, allowed users, and the runtime's life as a sequence of calls. Proof: invariant over sequences of calls; validation characterised exactly; refuting histories.
* Status: **partial**. Theorems: `C100_validate`, `C100_binding_partial`, `C100_resolves_partial`, `C100_grows`, `C100_default_refuted`, `C100_late_initialize_refuted`, `C100_identifier_then_addon_refuted`, `C100_addon_without_binding_refuted`.
* Resolving is proved for processes whose default file, if used, is valid and which create no identifiers from strings; that lookups never change is proved for every history. Calls are single steps; concurrent calls are not modelled.

### C101 Users that may exchange messages with a process

* Model: ConfModel.v: lookups, merging, validation, allowed users, and the runtime's life as a sequence of calls. Proof: induction over the instances in any order; refuting histories.
* Status: **partial**. Theorems: `C101_aggregated_partial`, `C101_addon_refuted`, `C101_unlisted_refuted`, `C101_messages_refuted`.
* The computed list is characterised for every order of visiting; it is not updated by add-ons, ignores unrestricted instances, and has no effect on which messages are accepted.

### C94 The trace filter switches on exactly what is asked for

* Model: FilterModel.v: the filter's four maps, adding and asking, the tracing settings of the deployments, the file parser function by function, the slot count over any iteration order; FilterSpec.v: what a file asks for and what a configuration has. Proof: each parser function switches on exactly a stated set (composed over loops and tables); slot count as a sum over a duplicate-free list, compared by permutation; refuting configurations.
* Status: **partial**. Theorems: `C94_enabled_partial`, `C94_answers_partial`, `C94_read_partial`, `C94_slots_partial`, `C94_enough_partial`, `C94_sample_slots_partial`, `C94_long_names`, `C94_nul_off_refuted`, `C94_nul_on_refuted`, `C94_long_name_refuted`, `C94_slots_order_refuted`.
* Proved for names without NUL characters and, where stated, of at most 1022 bytes; C94_long_names gives the exact length from which the process ends. Refuted: a name with a NUL character is cut when stored (asked for but off; on but not asked for), names longer than the hash buffer end the process, and the slot count depends on the iteration order when trace points were added directly for different instances.

### C103 A configuration file is read as written

* Model: ParseModel.v: every function of the file parser on a JSON value; ParseSpec.v: what a file says, member by member, in the words of the schema. Proof: each parser function succeeds iff its part of the description holds (composed over members, lists and maps); well-formedness from the description; refuting files.
* Status: **partial**. Theorems: `C103_meaning_partial`, `C103_accepted_partial`, `C103_one_meaning_partial`, `C103_well_formed_partial`, `C103_traced_partial`, `C103_identifier_partial`, `C103_ids_partial`, `C103_outcomes_partial`, `C103_name_cut_refuted`, `C103_further_bindings_refuted`, `C103_same_service_id_refuted`, `C103_too_many_slots_refuted`, `C103_no_slots_refuted`, `C103_unknown_method_refuted`, `C103_misspelt_refuted`, `C103_no_binding_refuted`.
* Proved for files whose objects have no key twice (what the JSON reader delivers): a file is read iff it describes a configuration, and gives that one; the configuration is well formed, its identifiers can be read elsewhere (C96), its events and fields have ids of their own. The description states the exceptions the refuted theorems show: names end at a NUL character, only the first binding counts, unknown keys are ignored, and neither service ids nor methods nor numbers of slots are checked.

### C104 Arguments and result of a method call arrive unchanged

* Model: ArgModel: size and alignment of the storage, places of arguments computed from addresses, queue elements, shared memory as bytes, call and handler in two processes with different mappings. Proof: layout by induction over the types; memory frame lemmas; the two sides agree because addresses are congruent modulo each alignment; witnesses for the refuted parts.
* Status: **partial**. Theorems: `C104_layout`, `C104_call`, `C104_elements_apart`, `C104_serialize_partial`, `C104_over_page_alignment_refuted`, `C104_unaligned_buffer_refuted`, `C104_overlap_check_refuted`.
* Proved for types aligned to at most a page and a transport that works (what happens when it fails is C73/C105). Refuted beyond a page: the two processes then compute different places. SerializeArgs, which the calls do not use, agrees with DeserializeArgs; its overlap check looks at a copy of the argument. Overflow of std::size_t is not modelled.

### C105 Pointers to arguments and results keep their slot of the call queue to themselves

* Model: PtrModel: flags of the call queue, pointer objects with ownership, moves and destruction, zero-copy and copying calls, outcomes of the binding as parameters. Proof: invariant (flags are set exactly for live pointers, at most one per element, no arguments beside a held result) by induction over the program; effect lemma of a call; witnesses for the refuted parts.
* Status: **partial**. Theorems: `C105_exclusive`, `C105_result_not_shared`, `C105_full`, `C105_allocate`, `C105_call`, `C105_call_copy`, `C105_stable`, `C105_all_released`, `C105_order_refuted`, `C105_result_as_argument_refuted`, `C105_reuse_refuted`.
* Proved for programs that give a call live pointers to the arguments of the called method, each at its place. The code checks only that queue positions are equal: refuted for pointers in another order, for a result pointer given as argument and for pointers given a second time. Pointers outliving their method object and concurrent use of one method object are not modelled.

### C106 Memory for control data and methods is large enough

* Model: SizeModel.v on top of AllocModel.v: the sequences of (size, alignment) that the calculations add up and those that the constructors allocate; containers outside /repo allocate their elements as one array, with a parameter for empty arrays.. Proof: the end of an allocation sequence is a monotonic function of start and sizes; the calculated size is that end counted from an aligned start (C27); the real sequence asks for no more than the calculated one..
* Status: **partial**. Theorems: `C106_control_analysis_partial`, `C106_control_simulation_partial`, `C106_methods_partial`, `C106_methods_additional`, `C106_control_analysis_getter_refuted`, `C106_subscribers_255_refuted`, `C106_methods_overaligned_refuted`.
* Control data: simulation suffices for all configurations with fewer than 255 subscribers; analysis additionally without getter or setter slots. Methods: exact for types of at most std::max_align_t alignment; for alignment up to A (at most a page) A - 16 additional bytes suffice. Refuted: getter slots in the analysis, 255 subscribers, over-aligned arguments.

### C107 A sample lies where provider and consumer look for it

* Model: LayoutModel.v on top of AllocModel.v and OffsetPtrModel.v: what creating an event leaves in shared memory, and the addresses computed by the two kinds of provider, the two kinds of consumer and a restarted provider. Simplified: where the allocator puts the array is a parameter (C28, C29), DynamicArray is its element count and data. Proof: arithmetic on the computed addresses; the in-place OffsetPtr is resolved by C30.
* Status: **partial**. Theorems: `C107_accepted_types`, `C107_same_place`, `C107_other_type_never_read`, `C107_restart_partial`, `C107_restart_opens`, `C107_overaligned_generic_refuted`, `C107_huge_generic_refuted`, `C107_restart_size_refuted`, `C107_restart_typed_refuted`.
* Proved for all types whose samples fit the address space, for all four combinations and for restarts with the same type and kind. Refuted: sizes that overflow, alignments above 16 (accepted, then the provider is ended), restarts with another size (writes outside the storage) or from generic to typed (ends the provider).

### C108 Moving a proxy or skeleton changes nothing but its place

* Model: objects with binding pointer, element map or elements, handle flag and owner, elements with a cell that points back (ReferenceToMoveable), bindings' prepare/stop counters, handlers that may hold a reference into an element; the world outside (announcements, active elements, samples in use, log of effects). Proof: forward simulation between the model with all pointers and a specification without them, invariant on the specification by induction over histories; silence after the end by induction over the rest of the history.
* Status: **partial**. Theorems: `C108_as_if_never_moved_partial`, `C108_announced_has_one_owner`, `C108_withdrawn_exactly_once`, `C108_ended_is_over`, `C108_swap`, `C108_generic_skeleton_refuted`, `C108_generic_skeleton_left_announced_refuted`, `C108_moved_twice_refuted`, `C108_traced_handler_refuted`, `C108_moved_from_use_refuted`.
* For every history within the stated rules the objects with all their internal pointers behave as a specification in which a move only says which variable holds the service. Refuted without the rules: destroying an offered GenericSkeleton terminates or, after an earlier stop, leaves it announced; moving a moved-from object of a generated class is undefined; with tracing, a receive handler set before a move dangles. Concurrent use during a move and failures of PrepareOffer are not modelled here.

### C109 The message server keeps the documented life of connections

* Model: Labelled step function over the engine's endpoint slots, connection objects, kernel sockets, client streams, queued commands and the engine thread's stack of callbacks (ServModel).. Proof: Invariant over all legal labels relating the log of events to slots, objects, descriptors and stack (ServProof, ServInv, ServStep, ServSafe); life-cycle automaton in ServSpec; a second invariant for the blocked engine..
* Status: **partial**. Theorems: `C109_never_crashes_partial`, `C109_callbacks_in_order_partial`, `C109_gone_is_over_partial`, `C109_messages_in_order_partial`, `C109_sent_to_its_client_partial`, `C109_stopped_is_over_partial`, `C109_no_descriptor_left_partial`, `C109_stop_closes_all_partial`, `C109_stop_returns_partial`, `C109_disconnect_then_error_refuted`, `C109_disconnect_from_thread_refuted`, `C109_failed_accept_refuted`, `C109_unanswered_requests_refuted`, `C109_disconnect_while_connecting_refuted`, `C109_partial_message_blocks_refuted`.
* Proved for all histories in which accept does not fail, RequestDisconnect is called in callbacks, connections are used only while accepted, and no message callback returns an error for a connection disconnected meanwhile. Refuted without these: use after free after disconnect plus error, abnormal end for RequestDisconnect on another thread and for a failed accept. Also refuted: one outstanding request at a time; disconnect in the connect callback; progress when a client sends part of a message (it blocks the engine and StopListening).

### C110 Setting, getting and updating a field from any threads

* Model: FieldModel: one field of an offered service as a labelled step function; Set, Get, Update step by step at each access to locks, the call's shared memory, slots and timestamp; subscribers' references and consumers' writes to their own memory are further labels. Proof: invariants by induction over labels: ownership of slots and locks (FieldProof), per-agent progress (FieldAns), admitted values (FieldGet), the latest sample and the search (FieldLin); spec: values_during and admitted over the log of calls, answers and sent values (FieldSpec).
* Status: **partial**. Theorems: `C110_set_answer_partial`, `C110_update_answer_partial`, `C110_get_admitted_partial`, `C110_no_termination_partial`, `C110_one_at_a_time`, `C110_slots_exclusive`, `C110_get_current_partial`, `C110_get_latest_partial`, `C110_no_failure_partial`, `C110_update_during_set_refuted`, `C110_value_changed_after_validation_refuted`, `C110_error_during_set_refuted`, `C110_few_slots_refuted`, `C110_values_during_get_refuted`.
* Proved for every interleaving: answers of Set and Update, one handler at a time, exclusive slots; without consumers writing into their calls' memory: only admitted values, no termination. Get answers a current value, and Set never fails, if values are sent one after the other, none begins while Get searches and three slots are free. Refuted without: an Update during a Set loses later Sets for good; a consumer changes the value after validation or terminates the provider; with fewer slots, or with values sent during the search, Get answers an outdated value.

### C111 Shared-memory handles of one process

* Model: FactModel: the factory's map of weak pointers, the registry, the file system and threads that hold handles, at the granularity of the factory mutex and the registry lock. Proof: invariants over all runs (inv: who uses which resource; dinv: registration in orderly use; qinv, winv, ninv: objects, write access, freshness); refutations by concrete runs.
* Status: **partial**. Theorems: `C111_no_dangling`, `C111_no_leak`, `C111_open_answer`, `C111_answer_usable`, `C111_create_new`, `C111_progress`, `C111_live_registered_partial`, `C111_one_mapping_partial`, `C111_no_termination_partial`, `C111_writable_partial`, `C111_current_partial`, `C111_stays_linked_partial`, `C111_usable_after_remove_refuted`, `C111_usable_during_drop_refuted`, `C111_create_after_remove_refuted`, `C111_open_during_drop_refuted`, `C111_writable_refuted`, `C111_current_refuted`, `C111_stale_only_refuted`, `C111_paths_independent_refuted`.
* Unconditional: no dangling registration, no leak, right path and owner, fresh objects from Create, no deadlock. Registration, one mapping and no termination are proved for orderly use; refuted when a path is used after Remove while a handle is held, when a thread drops the last handle while another opens, and for colliding identifiers. Write access and currency of the object refuted for paths already open.

### C112 Searching for services from any thread never blocks for ever, and a handler lives exactly as long as it may be called

* Model: FrontModel.v: threads as stacks of frames, the two recursive mutexes, the four containers, the shared_ptr/weak_ptr of each handler; user code may call anything at any time.. Proof: Invariants on mutex depth and stack shape, on references and running calls, on each search by the frame it is in, and on who takes a search out (FrontProof.v, FrontInv.v, FrontLife.v); in orderly use container_mutex_ is held only at the top of a stack; three counterexample runs, one shown to be stuck for ever..
* Status: **partial**. Theorems: `C112_progress_partial`, `C112_no_deadlock_partial`, `C112_runnable`, `C112_alive_while_running`, `C112_one_thread`, `C112_not_reentered`, `C112_destroyed_once`, `C112_stop_is_final_partial`, `C112_search_goes_on`, `C112_failed_start`, `C112_deadlock_refuted`, `C112_second_stop_refuted`, `C112_unknown_specifier_refuted`.
* Freedom from deadlock holds if nothing that StopFindService destroys calls service discovery, and is refuted otherwise: a handler that owns a proxy, stopped while the worker thread runs a handler that creates one. That a stop is final holds for the call that takes the search out; a second, concurrent call returns while the handler runs. An unconfigured specifier yields a handle and no error.

### C113 A container in shared memory gets its memory from the region it lives in

* Model: PxModel.v: regions at arbitrary disjoint addresses, registry, identifier words in shared memory that others may change at any step, threads in the three stages of MemoryResourceProxy::allocate, do_allocate through AllocModel.reserve, the simulation resource with its bounds, unchecked deallocation, the malloc path. Proof: Invariant over all orderly executions: the name read at the check still names the region that holds the proxy at the look-up and the region is mapped at the call; refutations by concrete executions.
* Status: **partial**. Theorems: `C113_own_memory_partial`, `C113_no_undefined_behaviour_partial`, `C113_one_home`, `C113_size_exact`, `C113_overflow_stops`, `C113_forged_name_stops`, `C113_unknown_name_stops`, `C113_served`, `C113_double_fetch_refuted`, `C113_end_address_refuted`, `C113_simulation_refuted`, `C113_forged_free_refuted`, `C113_removed_refuted`, `C113_heap_partial`, `C113_heap_alignment_refuted`, `C113_heap_exhausted_refuted`, `C113_double_free`.
* Proved for arbitrary earlier contents of the memory when the proxy does not change during a call, no size simulation runs, no proxy is at the end address of a region and no region is removed during a call in it; each of these conditions is shown necessary by a refutation. The allocation counter is not tampered with here (see C61).

### C114 Messages of a QNX server reach the client

* Model: QxModel.v: send queue with its one reply buffer and notify pool, two-step registration (events stored, queue checked), pulses in order, one read per pulse with the kernel's truncation, request counts; the size check of io_write in 64-bit arithmetic; the client's pulse table with 16-bit nonces. Proof: Invariants by induction over all executions (content order, accounting up to permutation, pulses at least as many as queued messages, polite counts, exact interleaving order, nonce = registrations mod 65536); concrete executions for the refutations, the wrap-around one by induction over cycles.
* Status: **partial**. Theorems: `C114_content_in_order`, `C114_nothing_invented`, `C114_nothing_dropped`, `C114_notify_answer`, `C114_sizes`, `C114_everything_arrives_partial`, `C114_order_partial`, `C114_no_undefined_behaviour_partial`, `C114_stuck_notification_refuted`, `C114_stuck_reply_refuted`, `C114_order_refuted`, `C114_second_request_refuted`, `C114_long_message_refuted`, `C114_write_within_partial`, `C114_write_accepted`, `C114_write_underflow_refuted`, `C114_pulse_value_exact`, `C114_pulse_home_partial`, `C114_stale_ping_refuted`.
* Order and integrity of messages with content, answers and sizes hold in every execution. Arrival needs at most one message before the client registers, the order of empty notifications needs none, memory safety needs polite peers and matching sizes; the refutations show each condition is needed. Disconnection during a call and the data race on the stored events are not modelled.

### C115 Receiving samples through the Rust interface

* Model: The subscription, its container, the receive future with its two halves of a poll, the stream, the waker, the guard against concurrent receives and the sample reference tracker, with labelled steps of provider, executor and user (RxModel.v).. Proof: One invariant over all reachable states (RxProof.v: step_inv), a closed form of the callback loop (push_all_closed), and witnesses for the refuted parts (RxProps.v)..
* Status: **partial**. Theorems: `C115_held_within_subscription`, `C115_samples_once_and_in_order`, `C115_try_receive_result`, `C115_try_receive_progress`, `C115_full_holding_always_fails`, `C115_receive_resolves_with_counts`, `C115_receive_reported_samples_present_partial`, `C115_exact_receive_keeps_last_batch_only`, `C115_receive_reported_samples_present_refuted`, `C115_receive_of_published_samples_succeeds_refuted`, `C115_container_shortened_to_max_refuted`, `C115_full_container_slides_refuted`, `C115_cancelled_container_unchanged_refuted`, `C115_invalid_arguments_refused`, `C115_allowed_arguments_accepted`, `C115_cancel_ends_receive`, `C115_subscription_free_after_receive`, `C115_no_sleep_on_new_samples`, `C115_notification_wakes`, `C115_poll_makes_progress`, `C115_stream_yields_all_in_order`, `C115_stream_yields_buffer_first`, `C115_orderly_use_never_panics`, `C115_small_container_never_panics_refuted`, `C115_unsubscribe_safe_iff_no_samples`, `C115_nothing_after_the_end`, `C115_samples_end_before_subscription_refuted`.
* Proved for all executions: holdings, order, uniqueness, counts, wake-ups, cancellation, streams and freedom from panics with large enough containers. Refuted: samples reported by a receive of several polls are in the container; receives of published samples succeed; the container is shortened; a full container slides; a cancelled receive leaves the container alone; small containers do not panic; samples end before the subscription.

### C116 Asynchronous discovery through the Rust interface

* Model: The future, the shared result with its waker, the handler calls of the C++ discovery in two steps, the start of the search in the call and its end in the destructor of the polled future, and the ownership of the boxed callback (DxModel.v).. Proof: One invariant over all reachable states (DxProof.v: step_inv) and witnesses for the refuted parts (DxProps.v)..
* Status: **partial**. Theorems: `C116_resolves_with_latest_report`, `C116_empty_result_after_withdrawal`, `C116_failed_start_is_an_error`, `C116_no_lost_wake_up`, `C116_handler_wakes`, `C116_found_instance_resolves`, `C116_polled_future_ends_search_partial`, `C116_search_ended_at_most_once`, `C116_callback_outlives_search`, `C116_search_ends_with_future_refuted`, `C116_resolves_without_instances_refuted`, `C116_memory_returned_refuted`, `C116_every_call_leaks`.
* Proved for all executions: results, wake-ups, progress when an instance is on offer, and the end of the search for polled futures. Refuted: the search ends with a future that was never polled; a result without instances; the memory of a call is returned.

### C117 Queued commands on QNX run without further events

* Model: QtModel.v: the queue, the thread, its pulses and the kernel timer with the conversion to 64 unsigned bits; time, registrations, clean-ups and Stop as labelled steps. Proof: invariants over all histories; a covering invariant for timely ones; induction on the queue for execution; witnesses for the refutations.
* Status: **partial**. Theorems: `C117_never_early`, `C117_each_once`, `C117_earliest_first`, `C117_cleaned_owner_is_quiet`, `C117_cleanup_returns_when_served`, `C117_nothing_after_stop`, `C117_overdue_command_sleeps_refuted`, `C117_overslept_for_centuries_refuted`, `C117_no_command_overslept_partial`, `C117_due_command_executed_partial`, `C117_any_pulse_recovers`, `C117_cleanup_not_overslept_partial`, `C117_lost_pulse_refuted`, `C117_cleanup_returns_refuted`, `C117_stop_returns_partial`, `C117_stop_hangs_refuted`, `C117_due_before_stop_refuted`.
* Order, single execution, no early execution, quiet owners after a served clean-up and silence after Stop hold of every history. Wake-ups are proved for histories in which every timer is set before the next due time and every pulse is sent. Refuted: a due time that passes before the timer is set (the distance wraps or disarms the timer), lost pulses (commands, Stop), two clean-ups of one owner, commands due before Stop.

### C118 Waiting for the background thread

* Model: FutModel.v: any number of futures with their waiting and marking threads, one mutex, one condition variable, lifetimes. Proof: an invariant of every future relative to the holder of the mutex, over all interleavings; a rank of the marking thread for the end of every wait.
* Status: **partial**. Theorems: `C118_no_access_after_return`, `C118_returns_own_value`, `C118_not_before_mark`, `C118_no_lost_wakeup`, `C118_mutual_exclusion`, `C118_marked_wait_can_return`, `C118_marked_twice_refuted`, `C118_left_while_marked_refuted`.
* Holds of every history in which each future is marked at most once and no function returns without a wait while its future is being marked or before it is. Refuted otherwise: a second mark, and a SendWaitReply whose transmission fails during teardown, let the background thread write into a function that is gone.

### C119 A sending event knows exactly how many of its samples are outstanding

* Model: Any number of trackers with a counter and any list of guards, each null or pointing to a tracker; one step per operation on a guard, two for the destructor of a tracker, with underflow, access to a destroyed tracker and termination as outcomes. On top of it the sample objects of the user with slot and guard: moves as swaps, reset and destructor as two steps each.. Proof: Invariants by induction over histories: the counter of each tracker equals the number of guards pointing to it, a tracker whose destructor has passed its check has none, and an object with a slot has the guard; witnesses for the refutations..
* Status: **partial**. Theorems: `C119_exact_count`, `C119_no_double_release`, `C119_event_outlives_samples`, `C119_destruction_checked`, `C119_moves_neutral`, `C119_allocate_during_destruction_refuted`, `C119_objects_counted`, `C119_reset_safe`, `C119_destructor_order_refuted`, `C119_assignment_releases_refuted`.
* Proved for the guards inside the sample objects (first five theorems; C119_moves_neutral is about guards) and for the sample objects after whole operations (C119_objects_counted), and in all interleavings if samples are given up with reset (C119_reset_safe), provided nobody asks an event for a sample once its destructor has begun. False as stated in three ways: an Allocate during the destructor of the event is not noticed; the destructor of a sample object releases its guard before its slot, so an event destroyed in between is used afterwards; assigning over a sample object swaps the two objects and does not release the overwritten sample. The counter does not wrap at 2^64.

## Findings

Behaviour of the code that contradicts a property as a user would state it. Each is a theorem (a concrete run or
input of the model, checked by the kernel); none was run on the real code.

* `C09_newer_than_everything_refuted` (EventProps.v): C09 refuted in full: the first sample sent after a restart may reuse a sequence number, and a consumer that already saw the old sample never gets it. Two slots. A (slot 0) is held by consumer 0; B (slot 1) was seen and released by consumer 1; the provider allocates B's slot and dies; after the restart the newest available sequence number is A's, so the next Send repeats B's.
* `C100_addon_without_binding_refuted` (ConfProps.v): If the first configuration has no service, the runtime of the binding is never created, although an add-on configuration brings services that use it.
* `C100_default_refuted` (ConfProps.v): The default configuration file is not validated: a process that does not call Initialize runs with an ASIL-B instance in a QM process.
* `C100_identifier_then_addon_refuted` (ConfProps.v): A QM process that received the identifier of an ASIL-B instance as a string ends when it adds a configuration that is valid on its own and clashes with nothing.
* `C100_late_initialize_refuted` (ConfProps.v): Once the runtime is in use, Initialize is ignored, whatever it is given.
* `C101_addon_refuted` (ConfProps.v): The list is computed once: users that an add-on configuration allows are missing from it.
* `C101_messages_refuted` (ConfProps.v): The lists have no effect: a process accepts messages of users that no instance of it lists.
* `C101_unlisted_refuted` (ConfProps.v): An instance without a list, whose memory everybody may use, does not widen the list.
* `C102_recoverable_refuted` (TraceOff.v): The threshold's documentation speaks of failures that are not recoverable; recoverable ones alone, which the tracer answers when it is only overloaded, switch tracing off for good.
* `C103_further_bindings_refuted` (ParseProps.v): Of several bindings of a service type only the first is read; the others are ignored without a message, whatever they contain.
* `C103_misspelt_refuted` (ParseProps.v): A misspelt key is ignored, here the number of sample slots: the event has none.
* `C103_name_cut_refuted` (ParseProps.v): What follows a NUL character in the name of a service type is dropped without a message: two types with different names cannot be configured, and the type gets a name the file does not contain.
* `C103_no_binding_refuted` (ParseProps.v): An empty list of bindings is accepted; no instance can be of that type.
* `C103_no_slots_refuted` (ParseProps.v): The schema asks for at least one sample slot: zero is accepted.
* `C103_same_service_id_refuted` (ParseProps.v): Two service types may have the same service id, the number that names their shared memory and their service discovery entries; the configuration is accepted and valid.
* `C103_too_many_slots_refuted` (ParseProps.v): Numbers of sample and tracing slots that are each allowed: the configuration is accepted and valid, creating the event ends the process.
* `C103_unknown_method_refuted` (ParseProps.v): A method of an instance that its service type does not have: the configuration is accepted and valid. Events and fields are checked (C103_ids).
* `C104_over_page_alignment_refuted` (ArgProps.v): Types aligned to more than a page. The code puts an argument at an address aligned in the address space of the process at hand; mmap only promises a multiple of the page size. With a type aligned to 8192 (alignas is accepted, nothing checks it) and the two processes mapping the region at addresses that differ by a page, the two sides compute different places: the handler is given other bytes than the caller passed.
* `C104_overlap_check_refuted` (ArgProps.v): The check that an argument does not lie in the buffer looks at a copy of the argument (it takes the argument by value): wherever the argument itself lies, even in the buffer it is copied into, the result is the same. And an argument whose copy ends exactly where the buffer starts, which shares no byte with it, ends the process.
* `C104_unaligned_buffer_refuted` (ArgProps.v): A buffer of the stated size that is not aligned: reading the arguments leaves the buffer (the size of the span is never looked at), while writing them ends the process.
* `C105_order_refuted` (PtrProps.v): The zero-copy call looks only at the queue positions of the pointers it is given, not at what they point to. Pointers to two arguments of the same type given in the other order: the call succeeds, and the handler is given the values in the order of the slot, not in the order of the call.
* `C105_result_as_argument_refuted` (PtrProps.v): Pointers to arguments and pointers to results are the same C++ type. The pointer to the result of one method given directly as the argument of another one is accepted: the handler is not given the result but what the argument slot of the called method happened to contain, and the result is released.
* `C105_reuse_refuted` (PtrProps.v): Pointers that were already given to a call (moved from) are accepted again: the second call runs on the same slot and overwrites the result of the first one, which the caller still holds; both live result pointers refer to the same value, and destroying one of them makes the slot available although the other one is still held.
* `C106_control_analysis_getter_refuted` (SizeProps.v): A field with a getter or setter: the analysis does not count the additional slot in the control data either; offering such a service ends the provider.
* `C106_methods_overaligned_refuted` (SizeProps.v): An argument type of larger alignment: the calculation assumes a start that meets it, the memory starts behind the management data. Creating the proxy ends the process.
* `C106_subscribers_255_refuted` (SizeProps.v): A maximum of 255 subscribers fits into the configuration, yet 255 is reserved in the transaction logs: offering a service with such an event ends the provider, whatever the size of the memory, and so does the simulation.
* `C107_huge_generic_refuted` (LayoutProps.v): Finding: sizes given to a generic provider are multiplied without a check. With size 2^60 and 16 slots the storage has no byte at all, and yet the provider hands out every slot.
* `C107_overaligned_generic_refuted` (LayoutProps.v): Finding: a generic provider with a type of alignment above 16 is created without an error, but terminates when it is offered.
* `C107_restart_size_refuted` (LayoutProps.v): Finding: a generic provider that restarts with a larger sample size on the memory of its crashed predecessor is not refused; the slots it hands out lie outside the slot array.
* `C107_restart_typed_refuted` (LayoutProps.v): Finding: a typed provider that restarts on the memory of a crashed generic provider of the same type and number of slots terminates when it is given one of the last slots: the element count it finds is that of the generic array.
* `C108_generic_skeleton_left_announced_refuted` (MoveProps.v): If it was offered, stopped and offered again, destroying a GenericSkeleton does not even end the program: the check in the binding remembers the first stop, and the service stays announced although no object holds it any more.
* `C108_generic_skeleton_refuted` (MoveProps.v): Destroying a GenericSkeleton while it is offered ends the program: unlike the generated classes it has no destructor that stops the offer.
* `C108_moved_from_use_refuted` (MoveProps.v): Offering a moved-from skeleton, or fetching from a moved-from proxy, uses a null binding; sending on a moved-from skeleton is refused.
* `C108_moved_twice_refuted` (MoveProps.v): A moved-from object of a generated class may be destroyed or assigned to, but not moved again: std::swap with a moved-from object, say, writes through a null pointer (reference_to_moveable.h:137-140).
* `C108_traced_handler_refuted` (MoveProps.v): With tracing of receive handlers, a handler registered before a proxy of a generated class is moved keeps a reference to the tracing data inside the old object (tracing/proxy_event_tracing.cpp:424-428): once that is destroyed the next notification reads freed memory. Without tracing the same history is fine.
* `C109_disconnect_from_thread_refuted` (ServProps.v): The documentation says that the methods of a connection can be called from any thread; RequestDisconnect on a live connection ends the program there.
* `C109_disconnect_then_error_refuted` (ServProps.v): A message callback calls RequestDisconnect on its connection and then returns an error, both of which ask for the same: the connection is destroyed inside RequestDisconnect, and the error makes the server use it again.
* `C109_disconnect_while_connecting_refuted` (ServProps.v): RequestDisconnect in the connect callback, on the connection being set up, has no effect: the connection is accepted all the same.
* `C109_failed_accept_refuted` (ServProps.v): A failing accept ends the program: a client that opens many connections makes the process run out of descriptors (or a client that gives up at once lets accept fail).
* `C109_partial_message_blocks_refuted` (ServProps.v): client 0 sends part of a message, client 1 connects and sends a whole one, StopListening is called
* `C109_unanswered_requests_refuted` (ServProps.v): The documentation says that a further request of a client is not handed over before the current one is replied to: it is.
* `C10_reoffer_after_disconnect_refuted` (CompositeProps.v): … and after an orderly re-offer that follows a disconnection of QM consumers (all slots of the event are used by ASIL-B consumers once)
* `C10_restart_refuted` (CompositeProps.v): C10 is false of the code as it stands: a crash between the two stores of a publication leaves the ASIL-B slot published and the QM slot in writing; the restart clears the latter only, and the next allocations run into the assertion [qm == asil_b].
* `C10_restart_refuted_allocation` (CompositeProps.v): the same after a crash between the two compare-exchanges of an allocation
* `C110_error_during_set_refuted` (FieldProps.v): If it replaces the value by an error instead, the provider is terminated.
* `C110_few_slots_refuted` (FieldProps.v): With one slot fewer, a value can be written over the latest one; a Get meanwhile answers an older value, although the newer one had been set, and answered, before the Get began.
* `C110_update_during_set_refuted` (FieldProps.v): Update does not take the lock that serialises Sets, and an application cannot serialise them itself, because the value of a Set is sent after its handler has returned. The timestamp is incremented by a load and a store; an Update that is interrupted between the two resets it to an old number. Here it does so after two Sets; the next Set succeeds, nothing else is in progress, and the following Get answers the value from before.
* `C110_value_changed_after_validation_refuted` (FieldProps.v): The handler validates the value where it lies: in the consumer's shared memory, from which it is then copied into the field. A consumer that changes it in between makes every other consumer get a value the handler has not let pass.
* `C110_values_during_get_refuted` (FieldProps.v): Get loads the slots' states one after the other. If meanwhile values are sent one after the other, it can find each slot just being written, except one a subscriber still holds: it answers the value of that one, however old, although newer values had been set before the call. The number of slots does not help.
* `C111_create_after_remove_refuted` (FactProps.v): Expected: a path whose memory was removed can be created again. While a handle to the removed memory is held, Create makes the new object and then terminates the process, because the identifier is still registered for the old one.
* `C111_current_refuted` (FactProps.v): Expected: Open gives the object that is linked at the path now. If another process unlinked and created the object anew while this process holds a handle, Open returns the old, unlinked memory.
* `C111_open_during_drop_refuted` (FactProps.v): Expected: opening a path never terminates the process. Thread 0 drops the last handle; before it has unregistered the memory, thread 1 opens the same path. Its lookup no longer finds the old memory, so it maps the object anew and terminates the process, because the identifier is still registered.
* `C111_paths_independent_refuted` (FactProps.v): Expected: different paths do not disturb each other. Identifiers are hashes of paths: if two paths have the same one, opening the second terminates the process.
* `C111_stale_only_refuted` (FactProps.v): Expected: RemoveStaleArtefacts removes only what nobody in the process owns, as it asserts. The assertion is checked under the lock, the unlinking happens after it: thread 0 passes the check, thread 1 creates the path and gets a handle, then thread 0 unlinks thread 1's new object.
* `C111_usable_after_remove_refuted` (FactProps.v): Expected: memory to which the application holds a handle stays usable. One thread creates memory, removes its path and, still holding the handle, calls Open for that path. Open fails because the object is gone, but the unfinished resource object unregisters the identifier it shares with the held one: containers in the held memory can no longer allocate (the next allocation terminates the process) and pointers into it are no longer recognised.
* `C111_usable_during_drop_refuted` (FactProps.v): Expected: without Remove, what is held stays usable. Thread 0 drops the last handle and is stopped before it unregisters. Thread 1 opens the same path: the first attempt fails and unregisters the identifier, the second succeeds and registers new memory. Thread 0 goes on and unregisters the new memory, to which thread 1 holds a handle.
* `C111_writable_refuted` (FactProps.v): Expected: Open with is_read_write gives memory that can be written. If the process already opened the path for reading, Open returns that read-only mapping: the first write faults.
* `C112_deadlock_refuted` (FrontProps.v): StopFindService destroys the handler while it holds container_mutex_ (service_discovery.cpp:187). If the handler owns something whose destructor calls service discovery, such as a proxy (bindings/lola/proxy.cpp:1003), and the worker thread is in a handler that calls service discovery, such as by creating a proxy (proxy.cpp:981), both wait for each other for ever: the deadlock that releasing container_mutex_ before the call of the client is meant to avoid.
* `C112_second_stop_refuted` (FrontProps.v): If two threads stop the same search, the second StopFindService reports success at once, while the handler is still running.
* `C112_unknown_specifier_refuted` (FrontProps.v): StartFindService with an instance specifier that is not configured returns a handle as if the search had been started; the handler is never called, whatever is offered. FindService reports an error in this case.
* `C113_double_fetch_refuted` (PxProps.v): The identifier is read from shared memory twice, once for the check and once for the look-up. A process that can write to the memory and changes it in between makes this process allocate from another region, outside of the memory in which the container lives.
* `C113_end_address_refuted` (PxProps.v): The end address of a region counts as inside. A proxy at the beginning of the next region passes the check with the name of the region before it, and the block comes from that region.
* `C113_forged_free_refuted` (PxProps.v): Deallocation is not checked at all: with the name of the simulation resource in its proxy, a container in shared memory hands a block of shared memory to the heap, which is undefined. (The resource looks whether it knows the block only after it has given it to the heap.)
* `C113_heap_alignment_refuted` (PxProps.v): A default-constructed allocator ignores the alignment of the element type: over-aligned elements get misaligned memory.
* `C113_heap_exhausted_refuted` (PxProps.v): And it hands on the null pointer of an exhausted heap as if it were memory.
* `C113_removed_refuted` (PxProps.v): A region given up while a thread allocates in it is used after it is unmapped.
* `C113_simulation_refuted` (PxProps.v): The resource with which sizes are calculated by simulation claims nearly the whole address space as its own. While it exists, a proxy in shared memory that has been given its name passes the check, and a container in shared memory gets memory from the heap of this process, unreachable for the others.
* `C114_long_message_refuted` (QxProps.v): The server does not look at the size of the client's buffer, and the client does not compare what it got with it: a server configured for longer messages than the client makes the client read beyond its buffer.
* `C114_order_refuted` (QxProps.v): Empty notifications do not go through the queue: one overtakes a message sent before it around the registration.
* `C114_second_request_refuted` (QxProps.v): A client that sends a second request before it has read the reply to the first makes a server that answers every request once put its only reply buffer into the queue twice.
* `C114_stale_ping_refuted` (QxProps.v): The number that tells connections in one place apart has 16 bits: after 65536 new connections in the place, an old ping still in the channel becomes a notification of a connection that has not sent it.
* `C114_stuck_notification_refuted` (QxProps.v): Two notifications sent before the client has registered for pulses, for instance by the connect callback, raise one pulse together. The client reads one message per pulse: the second stays in the server, with nothing to wake the client.
* `C114_stuck_reply_refuted` (QxProps.v): For the same reason the reply to an early request can stay unread behind an early notification: the client waits for it in vain.
* `C114_write_underflow_refuted` (QxProps.v): The check is unsigned: with less than a header received (which the resource manager library would have to let through) every size passes.
* `C115_cancelled_container_unchanged_refuted` (RxProps.v): FALSE of the code: a failed or cancelled receive returns the container as the user passed it (concept.rs 838-839). Samples received before the cancellation stay in the container, in place of older ones, and no count tells the user about them.
* `C115_container_shortened_to_max_refuted` (RxProps.v): FALSE of the code, and of the documentation of [try_receive]: a container with more than [max_samples] samples has [max_samples] samples after the call, even if no new samples were added (concept.rs 792-794). The container is shortened only by an arriving sample.
* `C115_full_container_slides_refuted` (RxProps.v): FALSE of the code: when new samples exist, a call of [try_receive] puts the newest sample into the container, dropping the oldest to make room (the comment at consumer.rs 1228-1229). A container that holds as many samples as were subscribed is never renewed: the call fails before any sample is dropped, again and again, until the user takes a sample out.
* `C115_receive_of_published_samples_succeeds_refuted` (RxProps.v): FALSE of the code: a receive with allowed arguments that gets new samples does not fail while enough samples are published. The samples kept in the container count against the subscription, but are dropped only when a sample arrives. With one old sample in the container and a subscription of two, a receive of two takes one sample, then holds two, and its next poll ends with an error although a further sample was published.
* `C115_receive_reported_samples_present_refuted` (RxProps.v): FALSE of the code: a receive that resolves with [n] has put [n] new samples into the container. Every poll passes the number of samples still missing as the size limit of the whole container (consumer.rs 771), and the callback first drops samples until the container is below that limit (1232-1234). So the second poll of one [receive] throws away what the first one received: a receive of two samples that arrive one after the other returns [Ok(2)] and a container with one sample. The first sample was never seen by the user.
* `C115_samples_end_before_subscription_refuted` (RxProps.v): FALSE of the code: samples cannot outlive the subscription (concept.rs 932-933 and the comment at consumer.rs 602-624). The sample type of the LoLa runtime ignores the lifetime of the borrow (consumer.rs 600), so with that concrete type nothing stops safe code from dropping the subscription while it keeps a sample. The C++ side then terminates the process (proxy_event_base.cpp 145-150).
* `C115_small_container_never_panics_refuted` (RxProps.v): FALSE of the code: a receive into an empty container never panics. The capacity of the container is not compared with [max_samples]; when more samples arrive than fit, the assertion on [push_back] fails (consumer.rs 1235-1238), inside a callback from C++.
* `C116_memory_returned_refuted` (DxProps.v): FALSE of the code: the memory of a call is given back when its future and its search are over. The boxed callback, and with it the shared result and the waker, is never freed: the C++ side ignores its disposal (registry_bridge_macro.h 188), and the Rust side has given it away.
* `C116_resolves_without_instances_refuted` (DxProps.v): FALSE of the code, and of the documentation (concept.rs 585-586): the future resolves, with an empty result when no instance is available. A search that finds nothing does not call its handler, so the future stays pending until the first instance is offered.
* `C116_search_ends_with_future_refuted` (DxProps.v): FALSE of the code: when the future is gone, the search has ended (the comments at consumer.rs 868-872 and 990-992 say that StopFindService is always called). The search starts when the function is called, but the object that stops it is made in the first poll. A future that is dropped before it is polled, for instance as the losing branch of a select, leaves the search and its inotify watches running for the life of the process.
* `C117_cleanup_returns_refuted` (QtProps.v): Finding: CleanUpOwner of another thread waits for an entry that carries the owner itself. Another clean-up of the same owner that is served first (from a second thread, or from a command) removes that entry with the commands of the owner; nobody marks the future, and the call never returns, whatever happens later.
* `C117_due_before_stop_refuted` (QtProps.v): Finding: a command that was due before Stop was called may never run, although the thread was free: the thread may take the quit pulse before the pulse of the registration.
* `C117_lost_pulse_refuted` (QtProps.v): Finding: the result of MsgSendPulse is ignored. When the pulse of a registration is not sent (the pulse pool is exhausted), the command sleeps although every timer is set in time.
* `C117_overdue_command_sleeps_refuted` (QtProps.v): Full property: while the thread sleeps no queued command is overdue. Finding: ProcessTimerQueue reads the clock once for ProcessQueue and again to set the timer; when the time of the next command passes in between (a command before it ran long enough, or the thread was not scheduled), the distance is negative and becomes about 2^64 nanoseconds, or is 0 and disarms the timer. The command stays queued until an unrelated registration or clean-up sends a pulse.
* `C117_overslept_for_centuries_refuted` (QtProps.v): Finding, continued: no passing of time helps. One nanosecond late the timer is disarmed for good; later it is armed for a time more than 292 years ahead.
* `C117_stop_hangs_refuted` (QtProps.v): Finding: Stop ignores the result of MsgSendPulse too. When the quit pulse is not sent, the thread never ends and Stop (the destructor of the engine) never returns, whatever happens later.
* `C118_left_while_marked_refuted` (FutProps.v): Finding: a function that returns without a wait while its future is being marked has the same effect, although each future is marked once. SendWaitReply does so when the transmission fails while the connection is being torn down (see C47).
* `C118_marked_twice_refuted` (FutProps.v): Finding: nothing in the class keeps a future from being marked again. A second mark after the wait returned writes into the stack of a function that is gone; the safety of the callers rests on each callback being called once.
* `C119_allocate_during_destruction_refuted` (GuardProps.v): An Allocate that another thread begins before the destructor of the event has ended, but after it has read the count, is not noticed: the process goes on and the sample later touches the destroyed event.
* `C119_assignment_releases_refuted` (HandleProps.v): Assigning over a sample object does not release the sample that it held: the objects are swapped, and the event counts the overwritten sample as outstanding, and terminates the process when it is destroyed, as long as the source object lives.
* `C119_destructor_order_refuted` (HandleProps.v): The destructor of a sample object releases its guard before its slot. An event that another thread destroys in between passes its check, and the object then discards its slot in a destroyed event.
* `C13_all_logs_refuted` (LogSetProps.v): C13 as stated is false: with two stale logs one call leaves the second one.
* `C15_unsubscribe_retries_refuted` (SubProps.v): 3 * max_subscribers lost compare-exchanges in a row terminate the process in Unsubscribe.
* `C17_foreign_unsubscribe_refuted` (ProxyProps.v): C17: Unsubscribe called from the receive handler of another event does not remove a handler that was set while the provider was away: it is called after the next Subscribe.
* `C17_registration_stays_refuted` (ProxyProps.v): C17: UnsetReceiveHandler while the provider is away leaves the registration in place; when the provider comes back the registration is renewed with the new process.
* `C18_subscribe_zero_refuted` (ProxyProps.v): C18: Subscribe(0) is accepted by the interface and terminates the process.
* `C20_refuted` (ProviderProps.v): C20 as stated is false.
* `C21_unlimited_refuted` (HistProps.v): C21 refuted at the end of the 32-bit sequence numbers: the 2^32-1-th sample of a one-slot event is never delivered to anybody, and no further sample can ever be allocated.
* `C22_samples_kept_refuted` (TrackerProps.v): It does exceed it: the destructor of a SamplePtr returns the reference before it releases the slot (members are destroyed in reverse order of declaration), so another thread that calls GetNewSamples in between gets one more. Subscribed with 1, two samples are kept from reuse.
* `C23_fails_only_if_full_refuted` (PidMapProps.v): With spurious failures a registration may fail although an entry is free.
* `C23_shared_application_id_refuted` (PidMapProps.v): Two processes with the same application id registering at the same time get two entries.
* `C29_estimation_generic_refuted` (AllocProps.v): A generic event whose sample size is not a multiple of its alignment: the estimation forgets the padding between the samples.
* `C29_estimation_getter_refuted` (AllocProps.v): A field with a getter: the estimation forgets its slot and the provider terminates.
* `C29_simulation_overaligned_refuted` (AllocProps.v): A sample type with larger alignment: the simulation starts at a page boundary, the real memory behind the management data.
* `C30_index_terminates_refuted` (OffsetPtrProps.v): operator[] is different: it adds the index to the stored offset before any check, in signed arithmetic. For an offset an attacker wrote the addition overflows.
* `C32_null_reads_as_null_refuted` (OffsetPtrProps.v): An offset of 1 represents null, but the bounds check treats it as the address one byte after the pointer: near the end of a region reading a null OffsetPtr terminates the process.
* `C33_keeps_protection_refuted` (OffsetPtrProps.v): The left pointer loses its recorded bounds: two confined copies on the stack, after swap the left one can be moved outside the region and is still handed out.
* `C34_agrees_with_raw_pointers_refuted` (OffsetPtrProps.v): Arithmetic whose result is the byte after the pointer's own address yields the null representation.
* `C36_nothing_if_in_none_refuted` (RegionProps.v): The address one past the end of a region is reported as inside it.
* `C40_empty_name_refuted` (GwProps.v): Constructible, but lost: an empty element name; more than 31 service elements.
* `C40_event_names_refuted` (GwProps.v): EventInfo is sent as raw bytes: the receiver gets the sender's pointer instead of the event's name.
* `C40_many_elements_refuted` (GwProps.v): A service with more than 31 elements does not fit into a message of 1024 bytes and is lost.
* `C41_interrupted_send_refuted` (GwProps.v): A send that fails half way and is tried again (bidirectional_transport.cpp:423-451 keeps the connection) makes the receiver accept a message nobody sent, here an OfferService for another instance.
* `C42_shared_number_refuted` (GwReqProps.v): After 2^32 further requests a sequence number is given out again although a request still waits for its acknowledgement.
* `C43_remote_element_type_refuted` (GwAppProps.v): The other gateway can terminate this one with one message.
* `C43_transport_failure_refuted` (GwAppProps.v): Service appears, the other gateway is not reachable, service disappears.
* `C44_stop_race_refuted` (MpClientProps.v): C44. A SendWaitReply that was transmitting when the connection was stopped and restarted erases the pending callback of a later call: that callback is never invoked although the connection has been stopped again.
* `C44_unsolicited_reply_refuted` (MpClientProps.v): C44. A reply nobody asked for reaches the callback of an unrelated call.
* `C45_unsolicited_reply_refuted` (MpClientProps.v): C45. A reply nobody asked for lets a later message overtake a SendWaitReply that is about to be transmitted.
* `C46_restart_refuted` (MpClientProps.v): C46. Truly asynchronous client with one queue element. A message is queued, the connection is stopped before the engine thread sent it, and restarted. Nothing is queued, yet the next Send is refused. The run is orderly.
* `C47_stop_race_refuted` (MpClientProps.v): C47. SendWaitReply fails to transmit while the connection is torn down: it returns the error and its callback, which refers to the caller's finished stack frame, is invoked afterwards.
* `C48_concurrent_cleanup_refuted` (TimedQueueProps.v): C48. Two threads clean up the same owner (unix_domain_engine.cpp 174-187): each registers a clean-up command with that owner and waits for it. Executing the first removes the second, whose thread waits for ever.
* `C48_null_owner_refuted` (TimedQueueProps.v): C48. Cleaning up the null owner removes the commands registered without an owner, which the interface documentation (timed_command_queue.h 71-74) excludes. The engines do not pass a null owner on (unix_domain_engine.cpp 166-169).
* `C49_large_buffer_refuted` (MpFrameProps.v): Once some endpoint of the engine has registered a receive size of 65536, the engine rejects every non-empty message on every connection.
* `C49_large_message_refuted` (MpFrameProps.v): A message of 65536 bytes, which a configuration can admit, arrives as an empty message; its content is then read as further messages.
* `C49_short_header_refuted` (MpFrameProps.v): The connection breaks after two bytes of a header: the receiver delivers an empty message nobody sent.
* `C49_short_send_refuted` (MpFrameProps.v): sendmsg accepts all bytes but the last; the sender reports success. The receiver takes the code of the next message as the missing byte.
* `C51_attach_race_refuted` (ShmLifeProps.v): C51: a consumer opens the usage marker file just before StopOfferService removes it; it then holds its lock on a file nobody finds any more. After the next OfferService it uses the new shared memory unnoticed, and the next StopOfferService removes that under its feet.
* `C52_both_offer_refuted` (ShmLifeProps.v): The two providers both offer.
* `C52_two_providers_refuted` (ShmLifeProps.v): Two providers: provider 1 opens the existence marker file of provider 0, which then is destroyed; provider 1 gets the lock on the file whose path provider 0 unlinks; provider 2 creates a new file. Both offer the instance.
* `C53_other_domain_refuted` (ErrorCodeProps.v): A code of one domain read as a code of the other is silently another error, or aborts.
* `C54_never_the_sentinel_refuted` (NamesProps.v): Identifier 0 means "not in a memory resource" (offset_ptr.h; shared_memory_resource.cpp:487-490 states that an identifier can never be 0), yet the QM control region simulated for service 0, instance 0 gets it.
* `C55_empty_provider_list_refuted` (AccessProps.v): Permission checks not strict, an empty list of providers (documented as 'everybody'): the consumer accepts no provider.
* `C55_methods_empty_list_refuted` (AccessProps.v): Permission checks not strict, a configured but empty list of consumers (documented as 'everybody'): a user can attach to the service's memory but every method subscription is refused.
* `C55_omitted_list_refuted` (AccessProps.v): No list for QM ("no restriction"), a list for ASIL-B: a QM consumer cannot attach, because the data memory is restricted to the listed ASIL-B users.
* `C55_umask_refuted` (AccessProps.v): With a umask that takes the right to read from others, an unrestricted service instance can be consumed by nobody else: the mode of world-writable memory is restored after creation, the mode of world-readable memory is not.
* `C56_qm_sample_overwritten_refuted` (CompositeProps.v): C56: after the disconnection a well-behaved QM consumer's sample is overwritten while it is still referenced.
* `C57_qm_write_terminates_provider_refuted` (CompositeProps.v): C57: a QM process can terminate the ASIL-B provider: one write of a status with another time stamp and no readers into a QM slot is enough.
* `C58_foreign_unsubscribe_refuted` (ProxyProps.v): C58: Unsubscribe called from the receive handler of another event returns while the handler of this event is running.
* `C60_destruction_while_not_offered_refuted` (ProviderProps.v): Destroying the pointer while the service is not offered uses a destroyed object.
* `C60_sample_ownership_across_reoffer_refuted` (ProviderProps.v): Without the restriction at PStop a pointer from before the restart frees a sample that belongs to another pointer, and two pointers own the same sample.
* `C61_corrupted_counter_refuted` (AllocProps.v): The allocator trusts the counter in shared memory: if another process wrote a value beyond the end of the region there, the signed difference becomes a huge buffer size and the allocation returns an address outside the region.
* `C62_not_null_owns_refuted` (TrackerProps.v): The converse fails: the source of a move assignment still tests non-null and get() returns the sample, although it keeps nothing.
* `C63_once_refuted` (GwReqProps.v): But not once: if the acknowledgement takes longer than the timeout the request is executed again.
* `C64_failed_request_refuted` (GwAppProps.v): A request that fails is not repeated, even if the consumers' handlers are reported again.
* `C64_failed_unregister_refuted` (GwAppProps.v): And after a failed request to stop, updates go on being forwarded.
* `C65_remote_requests_refuted` (GwAppProps.v): Requests of the other gateway are handled without the mutex: looking up a proxy races with adding or removing one.
* `C66_debug_assertion_refuted` (MpClientProps.v): C66. In a build with debug assertions a failing SendWaitReply with messages queued behind it trips an assertion.
* `C66_late_senders_refuted` (MpClientProps.v): C66. Two senders that passed the state check before the teardown insert the same command twice.
* `C66_unsolicited_reply_refuted` (MpClientProps.v): C66. A server that sends a reply nobody asked for makes the client call an empty callback.
* `C67_overdue_refuted` (TimedQueueProps.v): C67. A command due in 10 ms is queued. A command that runs for 100 ms is executed: when it ends, the timeout of the next poll() comes out negative, and the engine thread sleeps without limit although the queued command is overdue. Only a new registration or input on another descriptor would wake it.
* `C68_local_race_refuted` (NotifyProps.v): A removal of the last local handler that overlaps with a new registration clears the flag for good: Send no longer notifies.
* `C68_not_repaired_refuted` (NotifyProps.v): The loss is permanent: a second registration does not repair it, because it is not the first.
* `C68_outdated_message_refuted` (NotifyProps.v): Any process can make a provider forget another process: the outdated-process message names an arbitrary process, and the sender is not checked.
* `C68_remote_race_refuted` (NotifyProps.v): The same between two remote processes.
* `C69_many_processes_refuted` (NotifyProps.v): Hence "every registered process is notified" fails.
* `C69_sixth_handler_refuted` (NotifyProps.v): The sixth handler of an event in one process is never called.
* `C70_offer_fails_refuted` (ShmLifeProps.v): An OfferService fails although nobody uses shared memory: the provider died while offering, and a consumer is just trying to attach (in vain).
* `C70_reoffer_aborts_refuted` (ShmLifeProps.v): C70: offer - a consumer attaches - stop - the consumer detaches - offer: the provider's process terminates, although no two calls overlap.
* `C70_retry_aborts_refuted` (ShmLifeProps.v): C70: an OfferService that fails after the shared memory was created, retried.
* `C71_death_while_cleaning_refuted` (ShmOpenProps.v): A creator dies while initialising, the next provider dies between its two unlinks: the half-made object is opened as if it were complete.
* `C71_overlapping_cleanup_refuted` (ShmOpenProps.v): Two processes clean up and create at once: the second one's object is opened half-made.
* `C72_death_spreads_refuted` (ShmOpenProps.v): One consumer dies while opening shared memory a provider serves; another consumer's Open then terminates that consumer, whatever it waits for.
* `C73_reused_pid_refuted` (MethodProps.v): A process id reused by the restarted consumer: the new process' subscription is acknowledged, but its calls run on the memory of the process that died.
* `C73_shared_application_id_refuted` (MethodProps.v): Two processes with the same application id: the second one's subscription takes the first one's away, though the first has not unsubscribed and its process lives.
* `C74_queue_position_refuted` (MethodProps.v): A queue position outside the queue, taken from the consumer's message, terminates the provider.
* `C74_same_method_twice_refuted` (MethodProps.v): The same method twice in a consumer's region terminates the provider.
* `C74_shared_application_id_refuted` (MethodProps.v): No consumer misbehaves in what it writes or calls: two processes share an application id, the provider cannot open the second one's region, and the first subscribes again.
* `C74_stale_handler_refuted` (MethodProps.v): A restarted consumer that enables fewer methods leaves the old process' handlers registered for the others; calling such a method makes the provider read memory it has unmapped.
* `C74_unknown_method_refuted` (MethodProps.v): What the methods section of a consumer's region says is not checked: an unknown method, the same method twice, or a position outside the queue terminates the provider.
* `C75_offer_and_withdraw_refuted` (SdProps.v): A provider offers and withdraws between two reads of the client: the two events come in one batch, whose removals are handled before its creations. The search reports for ever an instance that nobody offers.
* `C79_crawl_failure_refuted` (SdProps.v): If watching the directory of a new instance fails over and over, every consumer that searches for any instance of the service is terminated.
* `C81_many_reoffers_refuted` (RemoteRegProps.v): After 65535 further offers by the same process the count is 0 again; UnsetReceiveHandler fails its assertion and terminates the consumer's process.
* `C81_message_lost_refuted` (RemoteRegProps.v): A register message that cannot be sent is not repeated, not even when further handlers are set.
* `C81_missed_restart_refuted` (RemoteRegProps.v): A restart that service discovery reports only as "still there": the proxy stays registered with the old process.
* `C81_overlapping_calls_refuted` (RemoteRegProps.v): Overlapping calls: proxy 0 removes its handler while proxy 1 sets one; the unregister message of the first call is sent after the register message of the second.
* `C81_removed_before_all_told_refuted` (RemoteRegProps.v): Giving up a handler before all proxies have been told of the new provider: proxy 1 is told first and removes its handler; proxy 0's re-registration then finds no entry and is skipped.
* `C81_replaced_while_pending_refuted` (RemoteRegProps.v): A handler replaced while the provider is away: two proxies have handlers, the provider is restarted, proxy 1 is told, proxy 0's handler is replaced before it is told. Proxy 0's re-registration takes proxy 1's registration away, and when proxy 0 later removes its handler the new provider forgets the process although proxy 1 still has a handler.
* `C81_same_pid_refuted` (RemoteRegProps.v): A new provider process that happens to get the pid of the old one is never told.
* `C81_stale_interest_refuted` (RemoteRegProps.v): The same process stops offering and offers again: the registration is counted twice, and the provider goes on notifying the process after its last handler has been removed and its last proxy destroyed. All conditions but "every provider is a new process" hold.
* `C81_unset_while_pending_refuted` (RemoteRegProps.v): A handler removed while the provider is away is registered with the new provider.
* `C83_outdated_refuted` (MsgProps.v): FALSE: a message of one process changes nobody else's registrations: process 7 tells that process 5 is outdated, and the registration of process 5 is gone, although 5 never asked for it.
* `C83_reason_refuted` (MsgProps.v): FALSE: the reply tells why it failed. A provider that cannot open the consumer's memory (ComErrc::kBindingFailure = 3) answers with the number of MethodErrc::kUnexpectedMessageSize and drops the connection of a consumer whose message was in order.
* `C83_reply_refuted` (MsgProps.v): FALSE: no reply terminates the caller
* `C83_request_during_teardown_refuted` (MsgProps.v): FALSE: requests never terminate the process. While the messaging is being torn down (its scope has expired, the server still listens), any request, even a well-formed one, does.
* `C84_crash_during_restart_refuted` (RestartProps.v): FALSE if the successor dies before its message about its predecessor is sent: the successor's successor only reports the successor.
* `C84_late_registration_refuted` (RestartProps.v): FALSE if a registration of the dead process arrives after its successor's message: the dead process stays in the table (process ids are not reused and there is one process at a time).
* `C84_orderly_runs_refuted` (RestartProps.v): in both refuting runs about dead processes nobody reuses an id or shares an application
* `C84_reused_pid_refuted` (RestartProps.v): FALSE with reused process ids: the restart of application 1 removes the registration of the live process 100 of application 2, whose number had been that of application 1's dead process.
* `C84_same_pid_refuted` (RestartProps.v): FALSE if the application gets the same process id again: its new process is notified although it has no handler registered.
* `C84_shared_application_id_refuted` (RestartProps.v): FALSE if two processes share an application id (the default is the user id): the second one's first proxy removes the registration of the first one, which is alive.
* `C85_deadlock_refuted` (CacheProps.v): Refuted: "every send returns". After [deadlock_run] no thread of the process ever finishes another send, and the engine never leaves its handler, whatever happens next.
* `C85_send_from_handler_refuted` (CacheProps.v): Refuted: "a message sent to a process that listens reaches it". A receive handler's first message to a process is lost although the process listens throughout.
* `C86_offered_again_refuted` (OfferProps.v): C86 refuted: a field that was given a value and whose provider never said otherwise answers Get with an error after the service has been stopped and offered again, although OfferService succeeded; the provider's attempt to set the value in between is refused.
* `C86_retry_loses_value_refuted` (OfferProps.v): C86 refuted: OfferService fails because another field has no value; the provider sets that one and calls OfferService again, which succeeds; the first field has lost its value.
* `C87_get_while_stopping_refuted` (OfferProps.v): C87 refuted: a Get that is executed while StopOfferService runs terminates the provider.
* `C87_offer_after_consumer_left_refuted` (OfferProps.v): C87 refuted: stopping while a consumer uses the service and offering again after it has gone terminates the provider.
* `C87_offer_twice_refuted` (OfferProps.v): C87 refuted: OfferService called a second time while the service is offered terminates the provider if no consumer uses the service.
* `C87_retry_undefined_refuted` (OfferProps.v): C87 refuted: no slot is free for a field's first value, so OfferService fails; calling it again destroys a guard that refers to removed memory.
* `C87_stop_after_offer_twice_refuted` (OfferProps.v): C87 refuted: OfferService called twice, the consumer leaving meanwhile: StopOfferService then uses the marker file that is no longer there.
* `C88_failed_offer_leaves_field_refuted` (OfferProps.v): C88 refuted: after that failed OfferService the field's event is still prepared.
* `C88_offer_twice_refuted` (OfferProps.v): C88 refuted: OfferService called a second time while a consumer uses the service fails and takes the service down: discovery still announces it, but Update is refused and no call of a consumer is executed.
* `C89_late_report_refuted` (TraceProps.v): The tracer's report about a trace of the stopped service releases a sample of the service's next offer that the tracer is still reading: the slot's number is used again.
* `C90_same_id_refuted` (TraceProps.v): Two traces that the tracer works on at the same time have the same id.
* `C91_loss_not_announced_refuted` (TraceProps.v): A record is lost, and neither the records sent meanwhile nor those started later carry the data-loss bit: a trace call that had started before clears the flag.
* `C92_failed_rollback_refuted` (TraceProps.v): The same after a restart in which rolling back the crashed process's transactions failed, which is meant to only switch tracing off.
* `C92_fatal_registration_refuted` (TraceProps.v): The same after the tracer answered the registration of the memory with its terminal error, which switches tracing off within OfferService.
* `C92_offer_after_failed_offer_refuted` (TraceProps.v): A first OfferService that fails after the memory was registered makes the next one end the process.
* `C92_recoverable_twice_refuted` (TraceProps.v): The same if the tracer answers recoverably both times.
* `C92_refused_then_new_skeleton_refuted` (TraceProps.v): After the tracer refused an event's traces for good, StopOfferService does not unregister the memory; the next skeleton for the service instance ends the process when it is offered.
* `C92_rollback_without_tracing_refuted` (TraceProps.v): In a process without tracing such a failed rollback is undefined behaviour within OfferService.
* `C92_send_after_off_refuted` (TraceProps.v): If tracing is switched off before a skeleton with trace points is offered, its first Send is undefined behaviour.
* `C92_skeleton_again_refuted` (TraceProps.v): The slots of a skeleton that is no longer offered are never given back: constructing it again ends the process, although the slots suffice for the configured service instance.
* `C93_old_memory_refuted` (TraceProps.v): After a failed OfferService, samples of the next offer are traced as if they lay in the memory of the failed one.
* `C93_retry_refuted` (TraceProps.v): After a recoverable error of the registration, the registration is not tried again by the next Send, as the log message says; the trace point is switched off.
* `C94_long_name_refuted` (FilterProps.v): Service and element name together longer than 1022 bytes: asking the filter ends the process, also when the file does not mention the element.
* `C94_nul_off_refuted` (FilterProps.v): An element whose name contains a NUL character: the filter stores the name cut at the NUL but looks up the full one; the trace point stays off.
* `C94_nul_on_refuted` (FilterProps.v): The same: the trace point of the element with the cut name is switched on.
* `C94_slots_order_refuted` (FilterProps.v): Trace points of one event added directly for different instances: the number of tracing slots depends on the iteration order of a hash map.
* `C96_same_process_refuted` (IdentProps.v): Creating the identifier from its own text in a process that has the service configured ends the process, whatever identifier of a configured instance it is.
* `C96_tracing_refuted` (IdentProps.v): A deployment with tracing slots: the identifier created from the text of the original in another process is not equal to the original.
* `C96_twice_refuted` (IdentProps.v): So does a second creation from the same text in any process.
* `C97_compatible_transitive_refuted` (DeplProps.v): so compatibility is not an equivalence: two instances that differ are both compatible with one without an id
* `C97_equivalent_refuted` (IdentOrderProps.v): Identifiers with different settings that the order does not separate: a std::set keeps only one.
* `C97_hash_refuted` (IdentOrderProps.v): Two ports of one application that refer to the same service instance: their identifiers compare equal but have different texts, so the hash that an unordered container computes differs.
* `C97_order_refuted` (IdentOrderProps.v): The order is no strict weak order, which std::set, std::map and std::sort require: an identifier can be equivalent to two identifiers of which one is less than the other.
* `C98_terminates_refuted` (IdentOrderProps.v): Creation is not exception-less for every string: a JSON object with another version ends the process, and so does an instance that lacks its settings.
* `C98_undefined_refuted` (IdentOrderProps.v): The empty JSON object has no version: in a release build the code reads past the end of a map.
* `C99_failed_refuted` (ConfProps.v): A merge that fails because of an instance leaves the new service types in the configuration.

## What is modelled

Paths are relative to /repo/score; L/ is mw/com/impl/bindings/lola.

| area | code | files |
|------|------|-------|
| slots of an event, provider and consumer sides, transaction logs | L/event_slot_status, L/event_data_control*, L/provider_event_data_control_local_view.cpp, L/consumer_event_data_control_local_view.cpp, L/transaction_log*.cpp, L/slot_collector.cpp, L/skeleton_event*.h, L/proxy_event.h | Slot*, Event*, Hist* |
| ASIL-B/QM composite | L/event_data_control_composite.*, L/skeleton_event* | Composite* |
| subscription counters and log set | L/event_subscription_control.*, L/transaction_log_set.cpp, L/transaction_log_rollback_executor.cpp, L/rollback_synchronization | Sub*, LogSet* |
| subscription state machine and proxy event | L/subscription_*.cpp, mw/com/impl/proxy_event_base.cpp | Proxy* |
| sample pointers, limits, tracing | mw/com/impl/sample_reference_tracker.cpp, plumbing/sample_ptr.h, L/sample_allocatee_ptr, tracing hooks of skeleton events and field getters | Tracker*, Provider* |
| tables in shared memory | L/application_id_pid_mapping*, L/linear_search_map.h | PidMap*, Map* |
| offset pointers, known regions, allocation, sizes | memory/shared/{offset_ptr*, pointer_arithmetic_util, memory_region_map, shared_memory_resource, new_delete_delegate_resource}, L/skeleton_memory_manager.cpp (sizes), L/service_data_control.cpp and method part of L/proxy.cpp (sizes) | OffsetPtr*, Region*, RegionVer*, Alloc*, Size* |
| creating, opening, locking shared memory; life of an instance | memory/shared/{shared_memory_resource,lock_file,shared_memory_factory_impl,flock}, L/skeleton.cpp, L/proxy.cpp, L/partial_restart_path_builder | ShmOpen*, ShmLife* |
| access rights | L/skeleton*.cpp, L/proxy.cpp, configuration defaults | Access* |
| settings of services and instances, identifiers, handles, the configuration | I/configuration/*_deployment.cpp, service_identifier_type.cpp, service_version_type.cpp, quality_type.cpp, configuration_common_resources.h, configuration.cpp, I/instance_identifier.cpp, handle_type.cpp, runtime.cpp (initialisation). Not: the JSON parser and writer themselves (a text is its JSON value or no JSON, and a written object is read back as itself), concurrent access to the configuration | Depl*, Conf*, Ident* |
| names, identifiers, error codes | mw/com/impl/instance_specifier.cpp, L/shm_path_builder.cpp, error_serializer | Names*, ErrorCode* |
| receive handler registration and notification; message handling | L/messaging/message_passing_service_instance.cpp, message_passing_client_cache.cpp, node_identifier_copier.h, L/subscription_helpers | Notify*, RemoteReg*, Msg*, Restart*, Cache* |
| offering and stopping a service with events and fields (API layer) | I/skeleton_base.cpp, I/skeleton_event_base.h, I/skeleton_field_base.h, I/skeleton_field.h, L/skeleton.cpp (PrepareOffer, PrepareStopOffer) | Offer* |
| tracing of sent samples | I/tracing/tracing_runtime.cpp, skeleton_tracing.cpp, skeleton_event_tracing.cpp, L/tracing/tracing_runtime.cpp, the tracing parts of I/skeleton_base.cpp and L/skeleton.cpp (not: proxy side trace points) | Trace* |
| reading the configuration file | I/configuration/configuration_json_parsing_strategy.cpp, config_validate.cpp, defaults of global_configuration.cpp and tracing_config.h. Not: the text of the JSON file (a file is a JSON value or no JSON), negative numbers (nothing reads one), log output, the build-time check against mw_com_config_schema.json | Parse* |
| the trace filter | I/tracing/configuration/tracing_filter_config.cpp, tracing_filter_config_parser.cpp, trace_point_key.h (the length limit of its hash), I/configuration/tracing_configuration.cpp, the tracing part of configuration_json_parsing_strategy.cpp on parsed deployments, ParseTraceConfig of runtime.cpp. Not: reading the JSON text, lifetime of the stored views | Filter* |
| methods | L/methods, L/skeleton.cpp, L/skeleton_method.cpp | Method* |
| data of method calls | I/util/type_erased_storage.h, L/methods/type_erased_call_queue.cpp, the data path of I/methods/proxy_method_with_*.h and skeleton_method.h. Not: types that allocate memory, overflow of sizes | Arg* |
| pointers of method calls | I/methods/method_signature_element_ptr.h, proxy_method.h, proxy_method.cpp, call operators of proxy_method_with_*.h. Not: concurrent use, pointers outliving their method | Ptr* |
| service discovery | L/service_discovery | Sd* |
| message passing | message_passing/{client_connection,timed_command_queue}.cpp, unix_domain/unix_domain_engine.cpp | MpClient*, TimedQueue*, MpFrame* |
| places of samples | L/skeleton_event.h and L/generic_skeleton_event.cpp (Allocate), L/proxy_event.h and L/generic_proxy_event.cpp (slot addresses), L/skeleton_memory_manager (creating and reopening event data), I/data_type_meta_info.cpp | Layout* |
| moving, assigning and destroying proxies and skeletons | skeleton_base.cpp, proxy_base.cpp, traits.h, reference_to_moveable.h, skeleton_event_base.h, proxy_event_base.cpp, generic_skeleton.h | Move* |
| message server, engine poll loop and cleanup | score/message_passing/unix_domain/unix_domain_server.cpp, unix_domain_engine.cpp | Serv* |
| fields: Set, Get and Update concurrently | I/skeleton_field.h, L/skeleton_event.h, L/skeleton_event_common.h | Field* |
| shared-memory factory and registry of one process | shared_memory_factory_impl.cpp, shared_memory_resource.cpp, memory_resource_registry.cpp | Fact* |
| service discovery front end | impl/service_discovery.cpp, locking of lola/service_discovery/client/service_discovery_client.cpp | Front* |
| Allocation through proxies in shared memory | polymorphic_offset_ptr_allocator.h, memory_resource_proxy.cpp, memory_resource_registry.cpp, new_delete_delegate_resource.cpp | Px* |
| Server to client messages on QNX | qnx_dispatch_server.cpp, qnx_dispatch_engine.cpp | Qx* |
| Receiving through the Rust interface | impl/rust/com-api/com-api-runtime-lola/consumer.rs (subscription, try_receive, receive, cancellable_receive, to_stream, drop), rust/score_com_concept/concept.rs (SampleContainer) | Rx* |
| Asynchronous discovery through the Rust interface | impl/rust/com-api/com-api-runtime-lola/consumer.rs (get_available_instances_async, ServiceDiscoveryFuture), com-api-ffi-lola (start and stop of a search) | Dx* |
| timers of the QNX engine | qnx_dispatch/qnx_dispatch_engine.cpp (EnqueueCommand, CleanUpOwner, ProcessTimerQueue), qnx_dispatch/dispatch_thread_runner.cpp, timed_command_queue.cpp | Qt* |
| futures of message passing | non_allocating_future/non_allocating_future.h, client_connection.cpp (SendWaitReply), qnx_dispatch_engine.cpp (CleanUpOwner) | Fut* |
| outstanding samples of sending events | impl/sample_allocatee_guard.cpp, impl/sample_allocatee_tracker.cpp, impl/plumbing/sample_allocatee_ptr.h, impl/bindings/lola/sample_allocatee_ptr.h (moves, reset, destructor) | Guard*, Handle* |
| gateway | mw/com/gateway | GwCodec*, GwFramer*, GwReq*, GwRetry*, GwApp* |

## What is not modelled

The JSON text parser and writer, code generation and trait wrappers, mocks and test doubles, logging, tracing back ends (only
their effect on samples is), mw/service, QNX back ends (`qnx_dispatch`, typed memory daemon, ACLs beyond the list of user
ids), server side of the message passing engine beyond framing and timers, weak memory effects below acquire/release,
elapsed time except in the timed command queue.

## Assumptions about what is outside the repository

* safe_math additions and casts report overflow exactly; `std::align` as specified; `NonRelocatableVector` by its
  documented behaviour; `std::map`/`std::set`/`unordered_map` as finite maps and sets; the intrusive list's
  `remove_and_dispose_if` like boost's.
* `std::string_view` is trivially copyable with pointer and size (libstdc++); "C" locale for `std::isalpha`/`isdigit`.
* TCP and Unix-domain stream sockets are reliable ordered byte streams; `sendmsg`/`recv` may fail or move fewer bytes.
  In GwReq and MpClient a failing transmission puts nothing on the wire (partial transmissions are the subject of C41,
  C49).
* POSIX: a path names an inode, open files survive unlink, `flock` locks belong to the inode and end with the process;
  `O_EXCL` creation is atomic; inotify delivers the events of a watched directory in order, exactly once, and never gives
  out a removed watch descriptor again.
* Sequential consistency of the atomics (the code uses seq_cst or acquire/release pairs; relaxed loads are revalidated).

Simplifications that restrict a model (one quality level, one service id, one object for three, ...) are stated in the
header comment of its Model file.

## Testing the theorems

`seeded/LOG.jsonl` has one line per wrong program tried: hand-written mutants of every model and automatic token-level
mutants (operators, constants, branches, swapped arguments). A mutant counts as killed if a lemma no longer compiles. For
survivors the line names the theorem added or tightened, or why the edit does not change anything that is claimed.
