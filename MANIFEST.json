{
 "claims": [
  {
   "property": "C01",
   "status": "proved",
   "theorems": [
    "C01_stream_roundtrip",
    "C01_stream_cleared",
    "C01_stream_read_prefix",
    "C01_stream_write_appends"
   ],
   "note": "round trip of any sequence of items written to a stream, prefix reads, and appends"
  },
  {
   "property": "C02",
   "status": "partial",
   "theorems": [
    "C02_get_int_checked",
    "C02_get_data_checked",
    "C02_history_in_bounds_partial",
    "C02_history_in_bounds_refuted",
    "C02_failed_get_data_no_effect_refuted"
   ],
   "note": "refuted as stated: a failed get_data_inplace has already advanced the offset, so size() underflows and a later read can pass the check; proved while the offset arithmetic does not wrap"
  },
  {
   "property": "C03",
   "status": "proved",
   "theorems": [
    "C03_blob_cross_host",
    "C03_bits_cross_host",
    "C03_netaddr_cross_host",
    "C03_ping_wire",
    "C03_int_wire_order",
    "C03_int_cross_host"
   ],
   "note": "integers, Blob and Bits; NetAddr and MsgPing under C13/C20"
  },
  {
   "property": "C04",
   "status": "partial",
   "theorems": [
    "C04_get_hex",
    "C04_load_hex",
    "C04_hex_roundtrip",
    "C04_load_hex_odd",
    "C04_load_hex_rejects_partial",
    "C04_load_hex_rejects_refuted"
   ],
   "note": "refuted as stated: load_hex accepts texts such as ' 1' and '+1' that are not hex digit pairs; every genuine digit pair text and odd length is handled exactly"
  },
  {
   "property": "C05",
   "status": "partial",
   "theorems": [
    "C05_conversions",
    "C05_rvalue_conversion_partial",
    "C05_rvalue_conversion_refuted",
    "C05_c_functions_partial"
   ],
   "note": "refuted as stated: the rvalue conversion returns consumed bytes too; exact for a stream from which nothing was read"
  },
  {
   "property": "C06",
   "status": "proved",
   "theorems": [
    "C06_blob_from_bytes",
    "C06_blob_wrong_size",
    "C06_blob_unserialize",
    "C06_blob_truncated",
    "C06_blob_serialize_appends",
    "C06_blob_null_zero"
   ],
   "note": "BlobProps.v; every word width and word count, both host byte orders"
  },
  {
   "property": "C07",
   "status": "proved",
   "theorems": [
    "C07_blob_eq",
    "C07_blob_lt",
    "C07_blob_total_order"
   ],
   "note": "BlobProps.v; every word width and positive word count, both host byte orders"
  },
  {
   "property": "C08",
   "status": "proved",
   "theorems": [
    "C08_bits_is_bit_vector",
    "C08_bits_new_ok"
   ],
   "note": "all sizes for which nbits + word size fits in uint32"
  },
  {
   "property": "C09",
   "status": "proved",
   "theorems": [
    "C09_bits_roundtrip",
    "C09_bits_truncated"
   ],
   "note": "BlobProps.v; sizes up to 2^32 - 1 (the length field is 32 bits), see the hypotheses"
  },
  {
   "property": "C10",
   "status": "partial",
   "theorems": [
    "C10_received_bits_backed_partial",
    "C10_large_bits_unbacked",
    "C10_received_bits_backed_refuted"
   ],
   "note": "refuted as stated: ndata wraps for nbits > 2^32 - bits per word"
  },
  {
   "property": "C11",
   "status": "partial",
   "theorems": [
    "C11_bits_from_bytes_partial",
    "C11_bits_from_five_bytes_undefined",
    "C11_bits_from_bytes_refuted"
   ],
   "note": "refuted as stated: for 64-bit words a byte is shifted as int by 32 or more"
  },
  {
   "property": "C12",
   "status": "partial",
   "theorems": [
    "C12_c_get_int_partial",
    "C12_c_get_int_refuted",
    "C12_c_get_data"
   ],
   "note": "refuted as stated: the C get functions report success even on failure"
  },
  {
   "property": "C13",
   "status": "partial",
   "theorems": [
    "C13_netaddr_wire",
    "C13_netaddr_roundtrip",
    "C13_netaddr_truncated",
    "C13_netaddr_equality",
    "C13_parse_accepts",
    "C13_parse_rejects_partial",
    "C13_parse_rejects_refuted"
   ],
   "note": "refuted as stated: the parser accepts blanks or a sign before the port number, garbage after it and text after a NUL; codec and accepted texts are exact"
  },
  {
   "property": "C14",
   "status": "proved",
   "theorems": [
    "C14_strerror",
    "C14_enum_total"
   ],
   "note": "UtilProps.v; the table and the enum are transcribed"
  },
  {
   "property": "C15",
   "status": "proved",
   "theorems": [
    "C15_msg_roundtrip",
    "C15_sender_builds",
    "C15_magic_changed",
    "C15_short_header_rejected"
   ],
   "note": "any digest, opcode width and host order, any trailing bytes"
  },
  {
   "property": "C16",
   "status": "proved",
   "theorems": [
    "C16_verify_iff",
    "C16_verify_field"
   ],
   "note": "the digest function is arbitrary; collisions are outside the claim"
  },
  {
   "property": "C17",
   "status": "proved",
   "theorems": [
    "C17_payload_one_shot"
   ],
   "note": "Every sequence of setting and taking the payload behaves as a one-place slot: a payload can be taken once, a second take gives nothing until a new one is set."
  },
  {
   "property": "C18",
   "status": "proved",
   "theorems": [
    "C18_hash_list_roundtrip",
    "C18_hash_list_truncated"
   ],
   "note": "Round trip across byte orders with the hashes as loaded from 32 bytes; every proper prefix is rejected by the exception."
  },
  {
   "property": "C19",
   "status": "partial",
   "theorems": [
    "C19_cross_host_partial",
    "C19_checksum_cross_host",
    "C19_cross_host_refuted"
   ],
   "note": "refuted as stated: a multi-byte opcode is written in host order and the checksum word is byte swapped; magic, length and payload are host independent"
  },
  {
   "property": "C20",
   "status": "proved",
   "theorems": [
    "C20_ping_roundtrip",
    "C20_heartbeat",
    "C20_ping_truncated"
   ],
   "note": "Round trip between hosts of any byte order, heartbeat distinguished, truncated input rejected."
  },
  {
   "property": "C21",
   "status": "proved",
   "theorems": [
    "C21_segbuffer_is_byte_queue",
    "C21_ideal_deterministic"
   ],
   "note": "all histories of push, rewind and pop"
  },
  {
   "property": "C22",
   "status": "partial",
   "theorems": [
    "C22_move_pop_partial",
    "C22_move_pop_histories",
    "C22_move_pop_refuted"
   ],
   "note": "refuted as stated: move_pop after a partial pop returns bytes already consumed and the size wraps; exact otherwise"
  },
  {
   "property": "C23",
   "status": "partial",
   "theorems": [
    "C23_framing_partial",
    "C23_framing_refuted"
   ],
   "note": "refuted as stated: a receive loop that fills the buffer returns without parsing, so complete messages are not handed over; proved: every run hands over a prefix, in order, once each, and everything complete whenever the connection is at rest"
  },
  {
   "property": "C24",
   "status": "partial",
   "theorems": [
    "C24_damaged_skipped_partial",
    "C24_next_read",
    "C24_damaged_skipped_refuted"
   ],
   "note": "refuted as stated: the parse loop stops at a damaged message, so an intact message already received behind it waits for the next read event; proved: exactly the intact consumed messages are handed over, and each later read gets past another damaged one or drains the buffer"
  },
  {
   "property": "C25",
   "status": "partial",
   "theorems": [
    "C25_oversized_partial",
    "C25_reported",
    "C25_oversized_terminates",
    "C25_oversized_refuted"
   ],
   "note": "refuted as stated: a read event between the error and the termination task parses the bytes behind the oversize header as messages and delivers them; proved: no delivered message exceeds the limit, the error is raised and the connection terminated"
  },
  {
   "property": "C26",
   "status": "partial",
   "theorems": [
    "C26_backpressure_partial",
    "C26_backpressure_refuted"
   ],
   "note": "refuted as stated: a full buffer met during the retry leaves read events masked and messages undelivered; proved: order and no loss or duplication for every refusal pattern, and the retry timer hands over the refused message next"
  },
  {
   "property": "C27",
   "status": "proved",
   "theorems": [
    "C27_recv_buffer_bounded"
   ],
   "note": "RecvProps.v; every sequence of reads, refusals and timer calls"
  },
  {
   "property": "C28",
   "status": "partial",
   "theorems": [
    "C28_no_stall_partial",
    "C28_no_stall_refuted"
   ],
   "note": "refuted as stated: after a receive loop that filled the buffer nothing ever parses it (proved: no continuation delivers); proved: a connection that stopped reading has its timer armed or a full buffer"
  },
  {
   "property": "C29",
   "status": "partial",
   "theorems": [
    "C29_close_partial",
    "C29_close_refuted"
   ],
   "note": "refuted as stated: a close seen in the same callback as data discards the data; proved for a close seen by a callback that received nothing"
  },
  {
   "property": "C30",
   "status": "partial",
   "theorems": [
    "C30_malformed_input_partial",
    "C30_no_crash_without_refusal",
    "C30_malformed_input_refuted"
   ],
   "note": "refuted as stated: an oversize header parsed by the retry timer throws out of an unprotected callback; proved: no undefined behaviour for any input, no crash without an oversize header, none when the queue never refuses"
  },
  {
   "property": "C31",
   "status": "partial",
   "theorems": [
    "C31_magic_partial",
    "C31_magic_refuted"
   ],
   "note": "refuted as stated: the receive path never compares the magic; proved: the delivered message carries the wire's magic"
  },
  {
   "property": "C32",
   "status": "proved",
   "theorems": [
    "C32_sent_in_order",
    "C32_wire_prefix"
   ],
   "note": "any number of writing threads interleaved with the worker, plain and TLS data phase; the queue is a FIFO list here"
  },
  {
   "property": "C33",
   "status": "partial",
   "theorems": [
    "C33_event_enabled_partial",
    "C33_no_stall_partial",
    "C33_no_stall_refuted"
   ],
   "note": "refuted as stated: an empty write is taken for the end of the queue and what is behind it waits for a notification that never comes; proved for non-empty writes: termination of the worker on an accepting socket with everything sent"
  },
  {
   "property": "C34",
   "status": "proved",
   "theorems": [
    "C34_unlimited",
    "C34_fails_only_when_exhausted",
    "C34_failed_without_effect",
    "C34_bounded"
   ],
   "note": "With no limit no write returns false; a write returns false only after a moment during the call at which the block pool was empty, and then without having appended anything; with a limit, and the sender putting back only what it has just taken out (conn.cpp), at most cap + 2 blocks of segments are queued, under every interleaving."
  },
  {
   "property": "C35",
   "status": "partial",
   "theorems": [
    "C35_end_to_end_partial",
    "C35_end_to_end_refuted"
   ],
   "note": "refuted as stated: the receiver can stall with everything received (C28); proved: prefix, equality of opcode, magic and payload, and completeness when the receiver is at rest; equal host order at both ends"
  },
  {
   "property": "C36",
   "status": "proved",
   "theorems": [
    "C36_in_turn",
    "C36_fifo",
    "C36_order",
    "C36_all_out"
   ],
   "note": "Sequentially consistent interleavings of any number of producers (bounded calls) and one consumer, for every block size, block count and placement of spurious compare-and-swap failures. The observed calls form a history of a deque: results in enqueue order, each element dequeued at most once, failed enqueues without effect, 'empty' only when the list is empty at that moment. C36_in_turn: the same with allocation on demand, for enqueue calls that do not overlap (any number of producers taking turns, dequeueing meanwhile)."
  },
  {
   "property": "C37",
   "status": "partial",
   "theorems": [
    "C37_drain_partial",
    "C37_bounded_partial",
    "C37_refuted",
    "C37_cut_refuted",
    "C37_in_turn_partial",
    "C37_single_partial"
   ],
   "note": "refuted as stated: with allocation on demand a producer preempted before clearing the freed flag of its block makes the block unrecyclable in time, and an element whose enqueue returned true is never dequeued (C37_refuted, 5 producers). Proved: whenever no flag store is late (timely), in particular always for calls that never allocate, for enqueue calls that do not overlap, and for a single producer, dequeueing from any quiet state returns everything enqueued. C37_cut_refuted: in another (three producers) interleaving the end producers append to is no longer connected with the front, so that from then on nothing is ever dequeued although every enqueue goes on returning true."
  },
  {
   "property": "C38",
   "status": "partial",
   "theorems": [
    "C38_order_refuted",
    "C38_empty_refuted",
    "C38_turns_partial"
   ],
   "note": "refuted as stated: a consumer preempted between loading the head block and taking its reference finds the block recycled at the end of the queue; it then takes a later element first (C38_order_refuted) or reports empty although the queue never was (C38_empty_refuted), both with non-allocating calls. Proved for consumers taking turns with any number of producers in parallel: every interleaving is a FIFO history."
  },
  {
   "property": "C39",
   "status": "proved",
   "theorems": [
    "C39_sequential",
    "C39_unique"
   ],
   "note": "For every block size and pool: every sequence of calls run one after the other terminates with exactly the results of the list specification, and the results are unique."
  },
  {
   "property": "C40",
   "status": "proved",
   "theorems": [
    "C40_single_owner",
    "C40_all_available",
    "C40_not_modified",
    "C40_only_ends"
   ],
   "note": "Free list under any number of threads and any schedule of atomic accesses (sequentially consistent), temporary references and spurious CAS failures included."
  },
  {
   "property": "C41",
   "status": "proved",
   "theorems": [
    "C41_no_lost_wakeup"
   ],
   "note": "Any number of producers and handlers; the handler returns false only after seeing the queue empty."
  },
  {
   "property": "C42",
   "status": "proved",
   "theorems": [
    "C42_threadcall_order",
    "C42_stop"
   ],
   "note": "Whole histories of posts, loop rounds, bursts, stops and destruction."
  },
  {
   "property": "C43",
   "status": "partial",
   "theorems": [
    "C43_answered_partial",
    "C43_bounded_wait_partial",
    "C43_answered_refuted"
   ],
   "note": "refuted as stated: destroying a ThreadCall deletes the queued handles without notifying the callers (C43_answered_refuted). Proved while the ThreadCall is alive: a pending call always leaves a step enabled, internal steps are finitely many, and the number of loop steps until the answer is bounded by the calls queued before."
  },
  {
   "property": "C44",
   "status": "proved",
   "theorems": [
    "C44_rc_exact",
    "C44_upgrade",
    "C44_count"
   ],
   "note": "All histories of Box/Rc/Weak operations (create, copy, move, assign, self-assign, downgrade, upgrade, from-Box, unwrap, drop) over any number of variables: no undefined behaviour, exact destruction, exact control block freeing, upgrade null iff destroyed, get_cnt exact (C44_count). The Box cast (C48) is excluded."
  },
  {
   "property": "C45",
   "status": "partial",
   "theorems": [
    "C45_object_once_partial",
    "C45_control_block_partial",
    "C45_control_block_refuted",
    "C45_overflow_refuted"
   ],
   "note": "refuted as stated: (1) two threads free the control block under a live weak handle when a downgrade overlaps the release of the previous last weak handle; (2) with 257 threads the 8-bit dcnt wraps and the control block is used after being freed. Proved: the object is destroyed at most/exactly once in every run whose upgrades are uninterrupted; the control block is safe in every run with at most 256 operations in progress and no such downgrade."
  },
  {
   "property": "C46",
   "status": "partial",
   "theorems": [
    "C46_reclaimed_refuted",
    "C46_reclaimed_partial"
   ],
   "note": "refuted as stated: two overlapping strong releases leak the control block. Proved for runs whose releases do not overlap."
  },
  {
   "property": "C47",
   "status": "partial",
   "theorems": [
    "C47_upgrade_partial",
    "C47_upgrade_refuted"
   ],
   "note": "refuted as stated: the upgrade tests and increments ref_cnt separately; a handle to a destroyed object results. Proved when the two accesses are not separated."
  },
  {
   "property": "C48",
   "status": "partial",
   "theorems": [
    "C48_box_partial",
    "C48_box_refuted"
   ],
   "note": "refuted as stated: static_pointer_cast(BoxObj&&) leaves the source owning the object, which is destroyed twice. Proved for all histories without that cast."
  },
  {
   "property": "C49",
   "status": "partial",
   "theorems": [
    "C49_moved_from_partial",
    "C49_moved_from_refuted"
   ],
   "note": "refuted as stated: a moved-from RcObj/ArcObj keeps its object pointer (operator bool is true, get() dangles later). Proved: moved-from Box is null; a moved-from Rc has use count 0 and dropping it has no effect."
  },
  {
   "property": "C50",
   "status": "proved",
   "theorems": [
    "C50_at_most_once",
    "C50_exactly_once",
    "C50_loops_finish",
    "C50_stop_closes"
   ],
   "note": "All runs of the pool model (user, dispatcher and any number of workers, any burst, TLS or not, any interleaving): the disconnect callback and the close happen at most once and no null/dangling access occurs (C50_at_most_once); once nothing is left to do a connection that something ended was closed and reported exactly once (C50_exactly_once); the loops do reach such a state and do finitely many actions without new events (C50_loops_finish); stopping closes every remaining socket exactly once (C50_stop_closes; without a callback)."
  },
  {
   "property": "C51",
   "status": "partial",
   "theorems": [
    "C51_connected_first_refuted",
    "C51_connected_first_partial",
    "C51_connected_once_partial"
   ],
   "note": "refuted as stated: a connect found established while its termination is still waiting in the dispatcher's queue (the terminate task was the last of a burst) is fed to a worker, torn down and set up: connected=true comes after connected=false. Proved for all runs without that event order, and at most one connected callback in every run."
  },
  {
   "property": "C52",
   "status": "proved",
   "theorems": [
    "C52_tls_not_before_approval",
    "C52_tls_refused"
   ],
   "note": "All runs with TLS: every received byte is preceded by a callback that returned true; after a refusal none is ever received and, once nothing is left to do, the connection was closed and reported."
  },
  {
   "property": "C53",
   "status": "partial",
   "theorems": [
    "C53_refusal_refuted",
    "C53_refusal_tls_partial"
   ],
   "note": "refuted as stated: without TLS the return value is ignored; everything settles, the connection stays open and goes on receiving. Proved for TLS."
  },
  {
   "property": "C54",
   "status": "proved",
   "theorems": [
    "C54_first_least_loaded"
   ],
   "note": "The selected worker exists, has the minimal count, and every earlier worker has a larger one, for every non-empty load vector."
  },
  {
   "property": "C55",
   "status": "proved",
   "theorems": [
    "C55_ids_distinct",
    "C55_errors_carry_ids"
   ],
   "note": "In every run the ids are consecutive modulo 2^16 so any 65536 in a row differ; errors reported under an id never outnumber the failures of operations with it, and equal them once nothing is left to do. Operation modelled: connect()."
  },
  {
   "property": "C56",
   "status": "partial",
   "theorems": [
    "C56_load_refuted",
    "C56_load_partial"
   ],
   "note": "refuted as stated: in the race of C51 the dispatcher tears the connection down before the worker took it over and the count of an empty worker becomes 2^64-1. Proved for all runs without that race and without a failing feed, below 2^64 connections."
  },
  {
   "property": "C57",
   "status": "partial",
   "theorems": [
    "C57_order",
    "C57_answers",
    "C57_has_peer_little",
    "C57_has_peer_big_refuted",
    "C57_registry_partial"
   ],
   "note": "Proved for every history of the dispatcher: calls take effect in the order made, and each reports exactly the error the earlier ones imply and otherwise none; failing ones leave the state unchanged. refuted as stated on big-endian machines: has_peer reads the first byte of a size_t as a bool, so it always answers false there (C57_has_peer_big_refuted); on little-endian ones it is right. The read through bool* of a size_t is formally undefined; the model reads the byte. Not covered: exceptions other than the listed errors (bad_alloc)."
  },
  {
   "property": "C58",
   "status": "partial",
   "theorems": [
    "C58_decisions_agree_partial",
    "C58_tie_break_refuted"
   ],
   "note": "refuted as stated: C58_tie_break_refuted runs two nodes that dial each other with nonces 8 and 21 to a settled state where one is connected and the other, with nothing left to do, is not: when the second dial is set up after the first connection was established on both sides, its ping makes one side give up the established connection while the other, still connected, ignores the reply. C58_decisions_agree_partial: if ping and reply of one connection are handled by disconnected nodes that still use the nonces they sent, both keep it when the dialling side's nonce is smaller and both drop it otherwise. Missing: handshakes that reach a node already connected."
  },
  {
   "property": "C59",
   "status": "partial",
   "theorems": [
    "C59_passive_accepts_partial",
    "C59_nonce_drawn_refuted",
    "C59_late_peer_refuted"
   ],
   "note": "refuted as stated: C59_nonce_drawn_refuted (the dialling node may draw 65535, which is the passive nonce, and is refused) and C59_late_peer_refuted (once the attempts asked for have failed the dialling node uses the passive nonce itself, and every later attempt is refused). C59_passive_accepts_partial: for every nonce drawn below the passive one both handlers accept. Missing: nonces not below the passive one."
  },
  {
   "property": "C60",
   "status": "partial",
   "theorems": [
    "C60_one_connection_partial",
    "C60_other_teardown_partial",
    "C60_stale_dial_refuted",
    "C60_connect_refuted"
   ],
   "note": "refuted as stated: C60_stale_dial_refuted (a dial that outlives the retry delay keeps pointing at the peer; when it ends the peer counts as disconnected although another connection is up) and C60_connect_refuted (a connection made with connect() to a registered peer is established; when it closes the peer stays connected to it). C60_one_connection_partial and C60_other_teardown_partial prove the claim for every calm history: no dial or conn_peer while an earlier dial of the peer is open, no handshake reply on a connect() connection, no connection serving two peers, get_peer_id only on open connections. Missing: histories that are not calm."
  },
  {
   "property": "C61",
   "status": "partial",
   "theorems": [
    "C61_no_dangling_partial",
    "C61_stale_dial_refuted",
    "C61_get_peer_id_refuted"
   ],
   "note": "refuted as stated: C61_stale_dial_refuted (del_peer, then the end of a dial that was superseded) and C61_get_peer_id_refuted (get_peer_id on a failed dial's connection, obtained from peer_cb, after del_peer; no two dials overlap). C61_no_dangling_partial: no step of a calm history, and no calm next step, accesses a deleted record. Missing: histories that are not calm."
  },
  {
   "property": "C62",
   "status": "partial",
   "theorems": [
    "C62_zero_stops_partial",
    "C62_keeps_trying_partial",
    "C62_limit_refuted",
    "C62_preempt_refuted"
   ],
   "note": "refuted as stated: C62_limit_refuted makes any number k of attempts after one conn_peer with any n > 0, each after the one before failed (the timer is never disarmed); C62_preempt_refuted leaves a peer asked for with -1 disconnected with nothing armed. C62_zero_stops_partial: every dial, in any history, goes to a registered peer whose last effective conn_peer had ntry other than 0, at its current address. C62_keeps_trying_partial: with ntry < 0 and no pre-emption the peer is not disconnected or its timer is armed and dials it. Missing: the bound n, which does not hold."
  },
  {
   "property": "C63",
   "status": "partial",
   "theorems": [
    "C63_leftover_partial",
    "C63_whole_partial",
    "C63_delivered_partial",
    "C63_torn_refuted",
    "C63_late_write_refuted",
    "C63_full_refuted"
   ],
   "note": "refuted as stated: C63_torn_refuted (the old connection broke inside a message: its tail is written to the new connection, whose receiver gets a message nobody sent), C63_late_write_refuted (a write to the old connection that returns true after the loop is never sent), C63_full_refuted (the loop ignores a refused write: the message is lost). C63_leftover_partial: what the loop takes and leaves is exactly what the old connection had not sent, in order. C63_whole_partial and C63_delivered_partial: when the old connection broke between messages, nobody else writes to the new one during the loop and its queue has room, exactly the unsent messages follow those already written to the new one, and its receiver gets a prefix of that. Missing: a break inside a message, other writers during the loop."
  },
  {
   "property": "C64",
   "status": "partial",
   "theorems": [
    "C64_npending_refuted",
    "C64_npending_partial"
   ],
   "note": "refuted as stated: the count is read back as a bool, so with two pending connections the result is undefined (an object representation that is no bool) and on a big-endian machine 0 (C64_npending_refuted). Proved: right for fewer than two on little-endian machines, defined exactly if the count modulo 256 is below two; what is counted are accepted, set up, not torn down connections with pairwise different remote addresses. Not every such connection is counted: a tear-down removes the entry of its address whoever it belongs to."
  },
  {
   "property": "C65",
   "status": "partial",
   "theorems": [
    "C65_right_client_partial",
    "C65_reconnect_refuted",
    "C65_send_partial"
   ],
   "note": "refuted as stated: the teardown of a client's old connection erases the table entry by address, so a client that reconnected from that address before is reported unknown although its connection is live (C65_reconnect_refuted). Proved for every history: a message that is sent goes to a live connection from that address; and, if connections from one address do not overlap, it goes to the live one if there is one and is refused otherwise."
  },
  {
   "property": "C66",
   "status": "proved",
   "theorems": [
    "C66_dispatch",
    "C66_progress"
   ],
   "note": "Every burst size and every interleaving of the user loop with the workers inside enqueue: each message is taken once, in order, by the handler registered for its opcode at that time or skipped if there is none; while running none is dropped, the loop is never stuck with messages left, and it stops after finitely many steps. Not covered: the dispatcher's check for a terminated connection, handlers that throw."
  },
  {
   "property": "C67",
   "status": "partial",
   "theorems": [
    "C67_stringprintf_partial",
    "C67_stringprintf_long_truncated",
    "C67_stringprintf_refuted"
   ],
   "note": "refuted as stated: texts of 1024 or more characters lose their last character"
  },
  {
   "property": "C68",
   "status": "proved",
   "theorems": [
    "C68_split",
    "C68_split_unique",
    "C68_split_empty_delim",
    "C68_trim",
    "C68_trim_unique",
    "C68_trim_all"
   ],
   "note": "for non-empty delimiters; the loop never ends for an empty one (C68_split_empty_delim)"
  },
  {
   "property": "C69",
   "status": "proved",
   "theorems": [
    "C69_multicast_reports"
   ],
   "note": "Every list, every history, every set of connections accepting the message."
  },
  {
   "property": "C70",
   "status": "partial",
   "theorems": [
    "C70_tls_skip_ca_check_refuted",
    "C70_tls_skip_ca_check_partial"
   ],
   "note": "refuted as stated: the pointer itself is converted to bool, so &b sets the flag for every b"
  },
  {
   "property": "C71",
   "status": "proved",
   "theorems": [
    "C71_text",
    "C71_string_injective",
    "C71_string_parses_back"
   ],
   "note": "The text form is injective on well-formed addresses and parses back to an equal address when the resolver knows dotted quads (gethostbyname is a parameter)."
  },
  {
   "property": "C72",
   "status": "partial",
   "theorems": [
    "C72_io_after_close_refuted",
    "C72_io_after_close_partial"
   ],
   "note": "refuted as stated: in the race of C51 with TLS the worker starts a handshake on the closed descriptor, which may belong to a newly accepted connection. Proved for all runs without that race."
  },
  {
   "property": "C73",
   "status": "partial",
   "theorems": [
    "C73_accept_recovers_refuted",
    "C73_accept_goes_on_partial"
   ],
   "note": "refuted as stated: after one failing accept the accept event is removed and nothing re-adds it (a second listen() by the user, not modelled, would). Proved as long as no accept failed."
  },
  {
   "property": "C74",
   "status": "partial",
   "theorems": [
    "C74_uninit_partial",
    "C74_null_partial",
    "C74_uninit_refuted",
    "C74_null_refuted"
   ],
   "note": "refuted as stated: C74_uninit_refuted (the very first answer of a dialled node is a pong with the null address: ping_timer_ok is read before it was ever set; the history is calm) and C74_null_refuted (conn_peer between the moment an incoming connection preempts the old one and the old one's tear-down: the saved ping is replayed on a null connection). C74_uninit_partial: an unset flag is read only by such a heartbeat answer for a peer never yet reported connected. C74_null_partial: without a conn_peer in that window no null connection is used. Freed records are the subject of C61."
  },
  {
   "property": "C75",
   "status": "partial",
   "theorems": [
    "C75_no_double_partial",
    "C75_truthful_partial",
    "C75_calm_partial",
    "C75_alternates_refuted",
    "C75_deleted_refuted",
    "C75_other_refuted"
   ],
   "note": "refuted as stated: C75_alternates_refuted (a failed dial is reported as a disconnect though nothing was reported connected), C75_deleted_refuted (del_peer of a connected peer: its connection is closed, no disconnect is reported), C75_other_refuted (a superseded dial ends: a disconnect is reported while the reported connection is up). For all histories: never two connected reports without a disconnect between (C75_no_double_partial); once nothing waits for a peer, it counts as connected exactly if the last report was connected, on the connection named (C75_truthful_partial). For calm histories (PeerCalmProps.calm) also: a disconnect after a connected report names the same connection, and the connection last reported is alive and the peer's own (C75_calm_partial)."
  },
  {
   "property": "C76",
   "status": "partial",
   "theorems": [
    "C76_unknown_peer_cuts_off_refuted",
    "C76_before_unknown_partial"
   ],
   "note": "refuted as stated: the loop stops with an exception at the first unknown peer; known peers after it get nothing (C76_unknown_peer_cuts_off_refuted). Proved: those listed before the first unknown one get it."
  },
  {
   "property": "C77",
   "status": "proved",
   "theorems": [
    "C77_file",
    "C77_parse",
    "C77_settings_unique",
    "C77_accepts",
    "C77_conf_includes"
   ],
   "note": "files of lines under 65534 characters and without NUL; what getopt_long returns is an input of the model. C77_file/C77_parse: a load or parse that throws nothing gave each option the settled value; C77_settings_unique: a file determines its settings; C77_accepts: acceptable settings are not refused"
  },
  {
   "property": "C78",
   "status": "partial",
   "theorems": [
    "C78_ends_partial",
    "C78_self_refuted"
   ],
   "note": "refuted as stated: C78_self_refuted (a file that includes itself: the recursion has no end). C78_ends_partial: if the inclusions can be ranked, load ends within rank+1 nested calls"
  },
  {
   "property": "C79",
   "status": "partial",
   "theorems": [
    "C79_stores_number",
    "C79_stored_partial",
    "C79_trailing_refuted",
    "C79_range_refuted"
   ],
   "note": "refuted as stated: C79_trailing_refuted (12abc is taken as 12), C79_range_refuted (a number too large throws std::out_of_range, not SalticidaeError). C79_stores_number: a decimal in range is stored exactly; C79_stored_partial: a number is stored exactly if the text begins with a decimal of that value in range, after white space; everything else throws and stores nothing"
  },
  {
   "property": "C80",
   "status": "partial",
   "theorems": [
    "C80_closed_partial",
    "C80_leak_refuted"
   ],
   "note": "refuted as stated: C80_leak_refuted (a refused value leaves the file open). C80_closed_partial: a load that throws nothing closes all it opened, and a load that throws never closes one it did not open"
  },
  {
   "property": "C81",
   "status": "partial",
   "theorems": [
    "C81_name",
    "C81_letter_partial",
    "C81_command_partial",
    "C81_name_letter_refuted",
    "C81_two_letters_refuted"
   ],
   "note": "refuted as stated: C81_two_letters_refuted (of two options with one letter the second is silently unreachable by it), C81_name_letter_refuted (a letter equal to another option's one-letter name: the wrong option is set, from a null pointer if it takes a value). C81_name: the name always reaches the option; C81_letter_partial: a name or letter reaches the first option registered that has it; C81_command_partial: without a clash of letter and name, getopt's results never lead to a null pointer"
  },
  {
   "property": "C82",
   "status": "proved",
   "theorems": [
    "C82_long_line"
   ],
   "note": "for text without NUL, in which strlen is the length read"
  },
  {
   "property": "C83",
   "status": "partial",
   "theorems": [
    "C83_unmentioned_partial",
    "C83_no_is_yes_refuted"
   ],
   "note": "refuted as stated: C83_no_is_yes_refuted ('f=no' and 'f=false' switch f on). C83_unmentioned_partial: a flag is not changed by a file that does not mention it"
  },
  {
   "property": "C84",
   "status": "proved",
   "theorems": [
    "C84_owner",
    "C84_no_ub",
    "C84_asked"
   ],
   "note": "refinement of a specification without handles and pointers (EventSpec), in both directions; undefined behaviour only from misuse; reported events go back to the last add"
  },
  {
   "property": "C85",
   "status": "partial",
   "theorems": [
    "C85_not_early_partial",
    "C85_early_refuted"
   ],
   "note": "refuted as stated: C85_early_refuted (add counts from the loop's cached time, so a timer set after 9 ms of work fires 9 ms early). C85_not_early_partial: never early in loop time; the last add counts, nothing after del or a report"
  },
  {
   "property": "C86",
   "status": "partial",
   "theorems": [
    "C86_reclaimed_partial",
    "C86_failed_init_refuted"
   ],
   "note": "refuted as stated: C86_failed_init_refuted (a handle whose initialisation fails is leaked). C86_reclaimed_partial: all others are held by a live object, or closed and freed; never closed twice"
  },
  {
   "property": "C87",
   "status": "partial",
   "theorems": [
    "C87_self_partial",
    "C87_self_clear_refuted"
   ],
   "note": "refuted as stated: C87_self_clear_refuted (clear, destroy, set_callback, move and assignment destroy the running function). C87_self_partial: del, add and everything on other events are defined"
  },
  {
   "property": "C88",
   "status": "partial",
   "theorems": [
    "C88_blocked_write_is_the_last",
    "C88_repetition_refused",
    "C88_no_refusal_partial",
    "C88_repetition_refuted"
   ],
   "note": "refuted as stated: C88_repetition_refuted (every pop copies, so SSL_write gets another buffer and refuses; SSL_MODE_ACCEPT_MOVING_WRITE_BUFFER is not set). C88_blocked_write_is_the_last, C88_repetition_refused: this happens after every TLS write that blocks. C88_no_refusal_partial: not otherwise"
  },
  {
   "property": "C89",
   "status": "proved",
   "theorems": [
    "C89_decrypted",
    "C89_resumed"
   ],
   "note": "that reading is resumed at all is C28"
  },
  {
   "property": "C90",
   "status": "proved",
   "theorems": [
    "C90_waits_as_asked",
    "C90_called_again"
   ],
   "note": "what the library does inside SSL_do_handshake is an input"
  },
  {
   "property": "C91",
   "status": "partial",
   "theorems": [
    "C91_reading_first_refuted",
    "C91_written_partial",
    "C91_full_buffer_partial"
   ],
   "note": "refuted as stated: C91_reading_first_refuted (a callback for a readable and writable socket only reads; for any number of callbacks). C91_written_partial: a callback for a socket that is not readable sends; C91_full_buffer_partial: a full receive buffer gives writing its turn"
  },
  {
   "property": "C92",
   "status": "partial",
   "theorems": [
    "C92_busy_refuted",
    "C92_reading_partial",
    "C92_writing_partial",
    "C92_unapproved_partial"
   ],
   "note": "refuted as stated: C92_busy_refuted (a TLS connection written to between handshake and approval asks for readability and does not read). C92_reading_partial, C92_writing_partial, C92_unapproved_partial: otherwise each callback gets on or stops asking"
  },
  {
   "property": "C93",
   "status": "partial",
   "theorems": [
    "C93_kept_partial",
    "C93_other_direction_refuted"
   ],
   "note": "refuted as stated: C93_other_direction_refuted (SSL_ERROR_WANT_READ on a write and SSL_ERROR_WANT_WRITE on a read end the connection). C93_kept_partial: otherwise a connection on which nothing failed and no TLS write blocked is kept"
  },
  {
   "property": "C94",
   "status": "proved",
   "theorems": [
    "C94_streams"
   ],
   "note": "the parser takes whole segments here; C21-C26 have the details"
  },
  {
   "property": "C95",
   "status": "proved",
   "theorems": [
    "C95_waits",
    "C95_called"
   ],
   "note": "whether the parser is ever called again after a full buffer is C28"
  },
  {
   "property": "C96",
   "status": "proved",
   "theorems": [
    "C96_handler_sees"
   ],
   "note": "no bound; loads are not performed before earlier accesses of their thread"
  },
  {
   "property": "C97",
   "status": "partial",
   "theorems": [
    "C97_order_partial",
    "C97_emptied_partial",
    "C97_order_refuted"
   ],
   "note": "refuted as stated: C97_order_refuted (block size 1, one producer, block recycled once: the consumer reads an old value of Block::next, relaxed load in line 253, and elements are lost; C++ allows it, processors that keep address dependencies do not do it). The partial theorems hold for all schedules and choices as long as no more elements were enqueued than fit into the first block"
  },
  {
   "property": "C98",
   "status": "partial",
   "theorems": [
    "C98_no_race_partial",
    "C98_race_refuted",
    "C98_taken_refuted"
   ],
   "note": "refuted as stated: C98_race_refuted, C98_taken_refuted (reference counts are changed with relaxed order: a block is recycled while a producer's store into it is still under way; then the element is raced for and the consumer waits for ever). The partial theorem holds as long as no more elements were enqueued than fit into the first block"
  },
  {
   "property": "C99",
   "status": "partial",
   "theorems": [
    "C99_handles_partial",
    "C99_all_back_partial",
    "C99_refuted",
    "C99_rsa_refuted",
    "C99_tls_refuted",
    "C99_unbounded_refuted"
   ],
   "note": "refuted as stated: C99_refuted (a PEM file with a bad object or a wrong password: the FILE is never closed), C99_rsa_refuted (EVP_PKEY lost when the RSA key cannot be set), C99_tls_refuted (SSL lost when SSL_set_fd fails), C99_unbounded_refuted (one file per failed attempt, without bound). Partial: handles are never given back twice, at most one is lost per operation that threw, and none if none threw"
  },
  {
   "property": "C100",
   "status": "partial",
   "theorems": [
    "C100_defined_partial",
    "C100_reported_partial",
    "C100_check",
    "C100_save_refuted",
    "C100_empty_refuted",
    "C100_long_refuted",
    "C100_unsigned_refuted"
   ],
   "note": "refuted as stated: C100_save_refuted (a file that cannot be opened for writing: null FILE pointer is passed on), C100_empty_refuted (an empty vector is dereferenced), C100_long_refuted (a password longer than the library's buffer: an exception is thrown through C code). C100_unsigned_refuted (a certificate the library refuses to sign is handed out as if signed). Partial: the first three are the only undefined cases; for the other operations (C100_reported_partial) the first refused call decides the exception, and C100_check: check_privkey gives the library's answer"
  },
  {
   "property": "C101",
   "status": "partial",
   "theorems": [
    "C101_password_partial",
    "C101_copy_partial",
    "C101_nul_refuted",
    "C101_nul2_refuted",
    "C101_copy_refuted"
   ],
   "note": "refuted as stated: C101_nul_refuted, C101_nul2_refuted (what follows a NUL in the password is ignored: wrong passwords accepted, right ones refused), C101_copy_refuted (the C functions leave the copy of a refused password in freed memory). Partial: passwords without NUL that fit the library's buffer; copies are wiped on success"
  },
  {
   "property": "C102",
   "status": "partial",
   "theorems": [
    "C102_round_trip_partial",
    "C102_accepted_partial",
    "C102_trailing_refuted"
   ],
   "note": "refuted as stated: C102_trailing_refuted (bytes after the encoding are dropped silently). Partial: exact encodings come back unchanged; what has no encoding at its beginning is refused"
  },
  {
   "property": "C103",
   "status": "partial",
   "theorems": [
    "C103_sha256_partial",
    "C103_sha1_partial",
    "C103_erased_partial",
    "C103_length_refuted",
    "C103_twice_refuted",
    "C103_stale_refuted"
   ],
   "note": "refuted as stated: C103_length_refuted (SHA1 digests are 32 bytes, of which the hash is the first 20), C103_stale_refuted (the last 12 bytes are what the caller's vector held), C103_twice_refuted (a second digest without reset uses an erased context). Partial: SHA256, first digest after a reset; SHA1 exactly as described. The hash itself is a parameter"
  },
  {
   "property": "C104",
   "status": "partial",
   "theorems": [
    "C104_reports_partial",
    "C104_reason_partial",
    "C104_settled_partial",
    "C104_client_partial",
    "C104_client_refuted",
    "C104_fatal_refuted"
   ],
   "note": "refuted as stated: C104_client_refuted (ClientNetwork ignores the result of the write: a message refused by a full buffer is neither sent nor reported), C104_fatal_refuted (after a fatal error deferred operations are dropped silently). Partial: MsgNetwork and PeerNetwork, any interleaving without a fatal error"
  },
  {
   "property": "C105",
   "status": "partial",
   "theorems": [
    "C105_answer_partial",
    "C105_peer_refuted",
    "C105_client_refuted"
   ],
   "note": "refuted as stated: C105_peer_refuted, C105_client_refuted (true although the send buffer was full). Partial: right for connections, and right whenever the buffer takes the message"
  },
  {
   "property": "C106",
   "status": "partial",
   "theorems": [
    "C106_guarded_partial",
    "C106_which_partial",
    "C106_refuted"
   ],
   "note": "refuted as stated: C106_refuted (e.g. msg_consume_payload on a message whose payload was consumed). C106_which_partial lists exactly the functions that let an exception through; std::bad_alloc is not considered"
  },
  {
   "property": "C107",
   "status": "proved",
   "theorems": [
    "C107_error_object",
    "C107_error_callback",
    "C107_callback_any"
   ],
   "note": "the throw expressions reached from each function are transcribed in the table capi"
  },
  {
   "property": "C108",
   "status": "proved",
   "theorems": [
    "C108_closes_its_own"
   ],
   "note": "termination by the threads is abstracted: a connection is terminated, then deleted once by the dispatcher (PoolModel)"
  },
  {
   "property": "C109",
   "status": "partial",
   "theorems": [
    "C109_nothing_left_refuted",
    "C109_nothing_left_partial"
   ],
   "note": "refuted as stated: C109_nothing_left_refuted (a socket is lost when a later step of accept or connect fails, for instance creating the connection object for want of descriptors). Partial: what is left is exactly one descriptor per such failure"
  },
  {
   "property": "C110",
   "status": "partial",
   "theorems": [
    "C110_port_free_refuted",
    "C110_port_free_partial"
   ],
   "note": "refuted as stated: C110_port_free_refuted (the networks' stop() hides that of the pool and leaves the listening socket open). Partial: the destructor and the pool's own stop() close it; stop() closes all other sockets"
  },
  {
   "property": "C111",
   "status": "proved",
   "theorems": [
    "C111_one_port"
   ],
   "note": "for all runs"
  },
  {
   "property": "C112",
   "status": "partial",
   "theorems": [
    "C112_failed_listen_refuted",
    "C112_failed_listen_partial"
   ],
   "note": "refuted as stated: C112_failed_listen_refuted (the socket stays bound when a step after bind fails, until the next listen). Partial: if bind fails nothing is bound, the port bound before included"
  },
  {
   "property": "C113",
   "status": "partial",
   "theorems": [
    "C113_answered_refuted",
    "C113_answered_partial"
   ],
   "note": "refuted as stated: C113_answered_refuted (a call after stop() waits for ever; start() after stop() does nothing). Partial: in order, each at most once, and the first waiting call can be served while the threads run"
  },
  {
   "property": "C114",
   "status": "proved",
   "theorems": [
    "C114_between_start_and_stop"
   ],
   "note": "for all runs"
  },
  {
   "property": "C115",
   "status": "partial",
   "theorems": [
    "C115_freed_refuted",
    "C115_freed_partial"
   ],
   "note": "refuted as stated: C115_freed_refuted (the worker takes the connection over after the dispatcher closed it; the callback of its event object keeps it for ever). Partial: free in every run without that race, without a failing feed and without stop(); the send queue's handler is tracked separately, as release_conn does not clear it"
  },
  {
   "property": "C116",
   "status": "proved",
   "theorems": [
    "C116_destroyed"
   ],
   "note": "a moved-from std::function holds anything (a parameter of the model)"
  },
  {
   "property": "C117",
   "status": "proved",
   "theorems": [
    "C117_contents"
   ],
   "note": "for all runs, against a separate specification"
  },
  {
   "property": "C118",
   "status": "proved",
   "theorems": [
    "C118_returned",
    "C118_wakes"
   ],
   "note": "safety for all interleavings; the caller can return from every reachable state"
  },
  {
   "property": "C119",
   "status": "partial",
   "theorems": [
    "C119_sent_refuted",
    "C119_sent_partial"
   ],
   "note": "refuted as stated: C119_sent_refuted (a refused message counts as sent). Partial: exactly the attempts are counted, in every interleaving without clear_msgstat"
  },
  {
   "property": "C120",
   "status": "proved",
   "theorems": [
    "C120_received"
   ],
   "note": "without clear_msgstat (C121)"
  },
  {
   "property": "C121",
   "status": "partial",
   "theorems": [
    "C121_clear_refuted",
    "C121_clear_partial"
   ],
   "note": "refuted as stated: C121_clear_refuted (cleared between the two accesses of an arrival: bytes without a message). Partial: cleared while nothing is under way, the counters are those of the messages since"
  },
  {
   "property": "C122",
   "status": "partial",
   "theorems": [
    "C122_contained_refuted",
    "C122_contained_partial"
   ],
   "note": "refuted as stated: C122_contained_refuted (an exception not derived from std::exception, or any exception of a set_handler handler, leaves the event loop's callback; messages of other connections are never handled). Partial: handlers registered with reg_handler, std::exceptions only, none replacing itself while running"
  },
  {
   "property": "C123",
   "status": "partial",
   "theorems": [
    "C123_routed",
    "C123_registering_refuted",
    "C123_registering_partial"
   ],
   "note": "routing proved for all runs (C123_routed). refuted as stated: C123_registering_refuted (a handler that registers for its own opcode is destroyed while it runs; what it captured, and the network itself when it then throws, is used after that). Partial: no handler registers for the opcode it is registered for"
  },
  {
   "property": "C124",
   "status": "partial",
   "theorems": [
    "C124_race_refuted",
    "C124_cert_refuted",
    "C124_race_partial"
   ],
   "note": "refuted as stated: C124_race_refuted (when a connection is found established while its termination waits in the dispatcher's queue, dispatcher and worker write socket event, I/O functions and queue handler at once), C124_cert_refuted (get_peer_cert() on a connection just returned by connect_sync reads what the worker sets at the end of the handshake). Partial: all runs without such a late termination, certificates read from callbacks only. The access lists of each step are part of the model"
  },
  {
   "property": "C125",
   "status": "partial",
   "theorems": [
    "C125_race_refuted",
    "C125_race_partial",
    "C125_alive",
    "C125_atomic"
   ],
   "note": "C125_alive, C125_atomic proved for all runs. refuted as stated: C125_race_refuted (finish_handshake assigns the peer's connection while holding the lock in shared mode only; send_msg in another thread reads it, also in shared mode). Partial: C125_race_partial shows that this is the only race"
  },
  {
   "property": "C126",
   "status": "partial",
   "theorems": [
    "C126_progress",
    "C126_ends",
    "C126_overtake_refuted",
    "C126_overtake_partial"
   ],
   "note": "C126_progress, C126_ends proved for all runs and both kinds of lock. refuted as stated: C126_overtake_refuted (with a lock that lets readers pass a waiting writer, two threads that keep sending hold up add_peer and del_peer for ever). Partial: C126_overtake_partial, for a lock that prefers writers"
  },
  {
   "property": "C127",
   "status": "partial",
   "theorems": [
    "C127_alive_refuted",
    "C127_moment_refuted",
    "C127_deferred_partial"
   ],
   "note": "refuted as stated: C127_alive_refuted (the table has no lock; the dispatcher destroys the entry send_msg has just found), C127_moment_refuted (on reconnection the entry is erased and inserted again; a send in between throws). Partial: C127_deferred_partial, sends by send_msg_deferred only (everything in the dispatcher's thread): answers, table and life of the entries are right"
  },
  {
   "property": "C128",
   "status": "proved",
   "theorems": [
    "C128_kept"
   ],
   "note": "C128_kept. Delays: L for the pool's threads, U for the user's, G age of libuv's clock."
  },
  {
   "property": "C129",
   "status": "proved",
   "theorems": [
    "C129_found"
   ],
   "note": "C129_found: the bound is 1.5 ping periods + timeout + U + 4L after the other side was last heard."
  },
  {
   "property": "C130",
   "status": "proved",
   "theorems": [
    "C130_rate"
   ],
   "note": "C130_rate."
  },
  {
   "property": "C131",
   "status": "partial",
   "theorems": [
    "C131_refuted",
    "C131_user_refuted",
    "C131_once_partial"
   ],
   "note": "refuted as stated: C131_refuted (a connection made with connect() is ended after conn_timeout whatever comes over it: its timeout is started once and only heartbeats of peers restart it), C131_user_refuted (pongs pass through the user's thread; a user held up for conn_timeout loses every peer that answers). Partial: C131_once_partial, exactly when such a connection is ended; for peers see C128."
  },
  {
   "property": "C132",
   "status": "proved",
   "theorems": [
    "C132_connected",
    "C132_progress",
    "C132_ends",
    "C132_comes"
   ],
   "note": "C132_connected (safety, and what holds at the end), C132_progress, C132_ends, C132_comes. Under the hypotheses named in the statement: one attempt is made (the next only after the handshake), connections are not refused, the nonce drawn is below the passive one (see C59 for what happens then)."
  },
  {
   "property": "C133",
   "status": "partial",
   "theorems": [
    "C133_asserts_partial",
    "C133_slow_dial_refuted",
    "C133_new_address_refuted",
    "C133_no_address_refuted",
    "C133_same_address_refuted"
   ],
   "note": "refuted as stated: C133_slow_dial_refuted (two nodes on a network that loses nothing; the answer to a dial comes after the retry delay: network.h 1109), C133_new_address_refuted (set_peer_addr while the peer is dialled: 1097), C133_no_address_refuted (the null address set for a peer to be dialled: 973), C133_same_address_refuted (anyone who connects from the address to be dialled: 980). C133_asserts_partial: no assertion fails in steady histories: calm ones (see C60) in which peers get addresses at which nodes listen and nobody dials from those, who is dialled has the registered identity, addresses are set and peers added again only when what was dialled to them is over, and replies come only on the last attempt. Missing: histories that are not steady. The library is built without assertions unless a debug build is asked for (CMakeLists.txt 63-64)."
  },
  {
   "property": "C134",
   "status": "partial",
   "theorems": [
    "C134_never_stuck",
    "C134_dial_connects_partial",
    "C134_dial_connects_refuted",
    "C134_agree_refuted"
   ],
   "note": "refuted as stated: C134_agree_refuted (no break at all: an attempt begun before the previous one was answered; when the end of the superseded one is noticed after the handshake, the teardown, network.h 834-838, marks the peer as disconnected: at rest a connection is up and the waiting node is connected by it, the dialling node is not) and C134_dial_connects_refuted (an attempt whose handshake message the waiting node dropped stays open without answer; the next attempt, undisturbed, supersedes it, and the same teardown undoes it). Proved of all histories: C134_never_stuck (nothing undefined, no escape, no stranger; at rest, joined or trying: the dialling node is never wrong in saying it is connected) and C134_dial_connects_partial (the next undisturbed attempt connects them if the one before it has ended or was answered, and the one after it in any case). As compiled with NDEBUG: a build with assertions stops at network.h 836 instead (C133). Missing: a positive number of attempts; that rest is reached (C132 has it for the first attempt)."
  },
  {
   "property": "C135",
   "status": "partial",
   "theorems": [
    "C135_connected_as_itself",
    "C135_conn_of_peer",
    "C135_messages_to_addressee",
    "C135_stranger_dialled",
    "C135_stranger_accepted",
    "C135_stranger_answers",
    "C135_get_peer_id_partial",
    "C135_get_peer_id_refuted"
   ],
   "note": "refuted as stated: C135_get_peer_id_refuted (with certificates: a connection dialled for peer 5 and answered by peer 7, with its own certificate, is set up and read from, since 7 is registered, network.h 793-811, and its get_peer_id, 384-390, says 5, for start_active_conn, 972-981, sets the peer before anything is known of the other end: a registered peer that gets the connections meant for another is taken for it by message handlers). Proved of all histories: the callback, get_peer_conn and messages (C135_connected_as_itself, C135_conn_of_peer, C135_messages_to_addressee), strangers (C135_stranger_dialled, C135_stranger_accepted), and C135_get_peer_id_partial: what get_peer_id says is right once the peer was reported connected over the connection, and always for accepted ones. That a certificate cannot be shown without its key is TLS's."
  },
  {
   "property": "C136",
   "status": "partial",
   "theorems": [
    "C136_reason_partial",
    "C136_reason_answered",
    "C136_reason_refuted"
   ],
   "note": "refuted as stated: C136_reason_refuted (two registered peers, 5 and 7, at one address, as after a change of certificate, both dialled: the connection dialled for 5 is answered by 7 and 7 is connected over it, but it stays the outbound connection of 5, network.h 979, since finish_handshake, 908-916, clears only that of 7; when the timer of 5 fires, start_active_conn, 977-978, ends it, and so again with every further attempt for 5). Proved: C136_reason_partial (in every history with certificates, whatever ends the connection of a connected peer i is a del_peer or conn_peer of i, or a ping with i's certificate, unless that connection had been dialled for another peer and answered by i); C136_reason_answered (so the claim holds in full where whoever answers a dial is who was dialled). Missing: the claim for connections dialled for one peer and answered by another, where it is false."
  },
  {
   "property": "C137",
   "status": "partial",
   "theorems": [
    "C137_apart_partial",
    "C137_reported_partial",
    "C137_apart_refuted",
    "C137_reported_refuted"
   ],
   "note": "refuted as stated: C137_apart_refuted (without certificates: someone connects and sends two handshake pings, claiming the addresses of two registered peers; ping_handler, network.h 1000-1048, does not look whether the connection already serves a peer, both become connected over it, and when it is torn down only the second is disconnected: the first counts as connected for ever) and C137_reported_refuted (with certificates: the connection dialled for 5 is answered by 7 and 7 is connected over it, as in C136; del_peer of 5, 1262-1270 with the destructor of Peer, 493, ends that connection and clears its peer, so on_dispatcher_teardown, 828-830, returns and 7 counts as connected for ever, is not dialled again, and no callback is made). Proved for all histories with certificates: C137_apart_partial (no two peers share a connection) and C137_reported_partial (the end of a connected peer's connection is reported, unless the connection was made with connect(), see C60, or dialled for another peer). Missing: histories without certificates (for these, calm ones: C60, C75)."
  },
  {
   "property": "C138",
   "status": "partial",
   "theorems": [
    "C138_spacing",
    "C138_first_partial",
    "C138_in_time_partial",
    "C138_at_once_refuted",
    "C138_at_once_full_refuted",
    "C138_once_refuted"
   ],
   "note": "refuted as stated: C138_at_once_refuted, C138_at_once_full_refuted (conn_peer of a connected peer: on_dispatcher_teardown, network.h 873-875, chooses no delay if the state is RESET, but 837 has just made it DISCONNECTED, so the first attempt waits for the whole delay) and C138_once_refuted (conn_peer(p, 1) of a connected peer: the end of the old connection is counted as an attempt, 869, and none is made at all, ever). Proved for all timed histories: C138_spacing (between two attempts without a conn_peer between them at least the delay passes, less the age of the loop's clock when the timer was started); C138_first_partial (conn_peer of a peer that is not connected: dialled at once, up to the lag of the dispatcher, unless one of its connections ends first or it is called again); C138_in_time_partial (with endless attempts and no second connection of the peer coming in, see C62: an unconnected peer is dialled within one and a half of the delay and the lag). Missing: the claim for a peer that is connected when conn_peer is called, and for finite numbers of attempts after the first, where it is false (C62_limit_refuted)."
  },
  {
   "property": "C139",
   "status": "partial",
   "theorems": [
    "C139_safe_partial",
    "C139_ends",
    "C139_nothing_left",
    "C139_client_refuted",
    "C139_client_send_refuted",
    "C139_start_refuted",
    "C139_safe_full_refuted"
   ],
   "note": "refuted as stated: C139_client_refuted, C139_client_send_refuted (ClientNetwork has no destructor, network.h 272-311: its table of clients is destroyed before ~MsgNetwork, 196, stops the threads; a client that connects meanwhile, or a message sent by send_msg_deferred before, uses the destroyed table) and C139_start_refuted (a start() that throws because a thread cannot be created, conn.h 549-556, leaves the threads created before running, and system_state 0, so that the destructor neither stops nor joins them: members they use are destroyed, and the process is aborted by the destructor of std::thread). Proved for all runs of MsgNetwork and PeerNetwork, and of a ClientNetwork that is stopped first, if threads can be created: C139_safe_partial, C139_ends, C139_nothing_left."
  },
  {
   "property": "C140",
   "status": "proved",
   "theorems": [
    "C140_addr_id",
    "C140_addr_distinct",
    "C140_cert_distinct",
    "C140_addr_cert",
    "C140_choice"
   ],
   "note": "for every digest function with 32 bytes; equality of ids is exact up to collisions of the very byte sequences hashed"
  },
  {
   "property": "C141",
   "status": "partial",
   "theorems": [
    "C141_default",
    "C141_checked_partial",
    "C141_checked_refuted",
    "C141_checked_full_refuted",
    "C141_callback",
    "C141_self_signed_refuted",
    "C141_self_signed_full_refuted",
    "C141_self_signed_excused"
   ],
   "note": "refuted as stated: C141_checked_refuted (no issuer can be trusted: TLSContext, crypto.h 312-359, never puts anything into the store of issuers, so a network that checks without a callback accepts nobody) and C141_self_signed_refuted (crypto.h 240-241 sets notBefore and notAfter both to the present time: the certificate is out of date as soon as it is made). Proved: the default and the callback as stated; C141_checked_partial: the check as stated for a store that contains issuers; C141_self_signed_excused: expiry is the only fault of a self-signed certificate, so that with a callback that excuses it exactly those who trust the key accept it. The check of the TLS library itself is modelled from its documentation."
  },
  {
   "property": "C142",
   "status": "partial",
   "theorems": [
    "C142_reported",
    "C142_each_refuted",
    "C142_each_full_refuted",
    "C142_over",
    "C142_answered",
    "C142_workers_end",
    "C142_nothing_left",
    "C142_stop_ends",
    "C142_opens_refuted",
    "C142_closed_full_refuted"
   ],
   "note": "refuted as stated: C142_each_refuted (of the errors of two workers only the first is reported: the second is forwarded through the dispatcher's queue, conn.h 528-533, which the first has stopped, 520, so it is dropped) and C142_opens_refuted (a fatal error stops the dispatcher's queue of tasks only, not its sockets and timers: it goes on accepting and dialling, and what it opens is neither set up nor closed until stop(); nor are connections closed that are lost after the error). Proved for all runs: C142_reported (the handler is called if any error occurred; all errors of the dispatcher are reported; none more often than it occurred), C142_answered (every caller who waits is answered, once), C142_over, C142_workers_end, C142_stop_ends, C142_nothing_left."
  },
  {
   "property": "C143",
   "status": "partial",
   "theorems": [
    "C143_kept",
    "C143_freed_partial",
    "C143_freed_in_the_end_partial",
    "C143_freed_refuted",
    "C143_freed_full_refuted"
   ],
   "note": "refuted as stated: when a connection is found established while its termination is under way, it is torn down and closed first and taken over by its worker afterwards; the callbacks then registered hold a handle of the object they belong to, and no run whatever releases it (C143_freed_refuted). Proved: an open connection is always held (C143_kept); without that race, from the close on only posted tasks hold handles and the loops come to an end with none (C143_freed_partial, C143_freed_in_the_end_partial). Handles in messages waiting for their handler and in the tables of PeerNetwork and ClientNetwork are not part of this model."
  },
  {
   "property": "C144",
   "status": "partial",
   "theorems": [
    "C144_receive_calls",
    "C144_received",
    "C144_messages",
    "C144_messages_zero",
    "C144_tasks",
    "C144_sends_partial",
    "C144_sends_unbounded_refuted",
    "C144_sends_full_refuted"
   ],
   "note": "refuted as stated: sending is not limited. _send_data goes on as long as it finds something in the queue, so a writer as fast as the kernel keeps the worker on that connection; from one state, any number of send() calls in one callback (C144_sends_unbounded_refuted, C144_sends_full_refuted). Proved: at most one call per segment in the queue, held, or added meanwhile (C144_sends_partial); the limits of receiving (C144_receive_calls, C144_received), of handlers (C144_messages) and of tasks (C144_tasks). A burst_size of 0 means no limit (C144_messages_zero). How long a handler or task itself takes is the user's."
  },
  {
   "property": "C145",
   "status": "partial",
   "theorems": [
    "C145_lists_options_partial",
    "C145_letters_aligned_partial",
    "C145_docs_aligned_partial",
    "C145_docs_aligned_refuted",
    "C145_unsigned_refuted",
    "C145_help_full_refuted"
   ],
   "note": "refuted as stated: for an option without a letter two tabs stand in for the letter and one tab, which is as wide only if the longest name leaves 6 or 7 when divided by eight; otherwise options of both kinds are never aligned (C145_docs_aligned_refuted, for all such sets). Where char is unsigned, the -1 of an option without a letter becomes 255 and is printed as a letter (C145_unsigned_refuted, for all sets with such an option). Proved where char is signed: one line per option with its parts (C145_lists_options_partial), letters aligned (C145_letters_aligned_partial), texts aligned in the remaining cases (C145_docs_aligned_partial)."
  },
  {
   "property": "C146",
   "status": "partial",
   "theorems": [
    "C146_given_back_partial",
    "C146_bounded_partial",
    "C146_order_partial",
    "C146_lost_refuted",
    "C146_full_refuted",
    "C146_leak_refuted",
    "C146_in_turn_partial"
   ],
   "note": "refuted as stated: with allocation on demand a late store of a producer lets the slot of an accepted element be overwritten (C146_lost_refuted) or cuts the queue in two, after which two of four blocks and the elements in them are leaked (C146_leak_refuted). Proved whenever no flag store is late (timely), in particular always for calls that never allocate or do not overlap: the destructor ends, frees every block once, touches none afterwards, and destroys exactly the elements left."
  },
  {
   "property": "C147",
   "status": "partial",
   "theorems": [
    "C147_stuck_every_size_refuted",
    "C147_stuck_4096_refuted",
    "C147_timely_partial",
    "C147_bounded_partial",
    "C147_in_turn_partial",
    "C147_stuck_refuted",
    "C147_order_refuted",
    "C147_full_refuted"
   ],
   "note": "refuted as stated: with allocation on demand and two producers, block size 1, an interleaving leaves `tail` pointing to a full block that already has a successor. From then on every enqueue call spins for ever, whatever the other threads do (C147_stuck_refuted); the same for every block size, so for the code's 4096 too (C147_stuck_every_size_refuted, C147_stuck_4096_refuted). With block size 1 the elements already accepted come out in the wrong order (C147_order_refuted). Proved whenever no flag store is late (timely), in particular for calls that never allocate (C147_bounded_partial) and for enqueue calls that do not overlap (C147_in_turn_partial): histories are first-in first-out, and from every state at rest an enqueue call returns, with true if it may allocate."
  },
  {
   "property": "C148",
   "status": "partial",
   "theorems": [
    "C148_delay",
    "C148_monotone",
    "C148_seconds_partial",
    "C148_ms_partial",
    "C148_ms_refuted",
    "C148_full_refuted",
    "C148_undefined_refuted"
   ],
   "note": "refuted as stated: a delay given in whole milliseconds may lose one: 1.001 s starts the timer with 1000 ms (C148_ms_refuted), because t * 1000 is truncated after rounding; and a negative, infinite or very long delay is undefined behaviour (C148_undefined_refuted). Proved for every delay from 0 to 136 years: the timer is started with the whole number of milliseconds in it, up to 1/4096 ms (C148_delay); longer delays are not started with less; whole seconds are kept exactly; whole milliseconds lose at most one."
  },
  {
   "property": "C149",
   "status": "proved",
   "theorems": [
    "C149_range",
    "C149_default",
    "C149_seconds",
    "C149_drawn"
   ],
   "note": "For all finite base and alpha up to 2^500 and every result of rand(): the delay lies between base and base + alpha*base, as the machine rounds them (C149_range); with the default alpha within a microsecond of [base, 1.5 base] (C149_default); for whole seconds the timer is started with between 1000 and 1500 ms for each (C149_seconds), which is what RetryModel assumes (C149_drawn). RAND_MAX of glibc."
  },
  {
   "property": "C150",
   "status": "partial",
   "theorems": [
    "C150_wall",
    "C150_cpu_partial",
    "C150_cpu_refuted",
    "C150_full_refuted"
   ],
   "note": "refuted as stated: processor time is computed in float, so that after 19 hours of it 4 ms are reported as 0 and 1 microsecond as 7.8 ms (C150_cpu_refuted). Proved: the wall time is right to a microsecond until the year 2106 (C150_wall), and the processor time to three microseconds in the first 16.7 seconds of it (C150_cpu_partial)."
  },
  {
   "property": "C151",
   "status": "proved",
   "theorems": [
    "C151_sec2tv"
   ],
   "note": "For every double from 0 to 2^32 the result is a valid timeval: whole seconds, microseconds below a million, together at most a microsecond (and the rounding of the product) below t. Negative numbers not covered."
  },
  {
   "property": "C152",
   "status": "partial",
   "theorems": [
    "C152_stores",
    "C152_outcome_partial",
    "C152_refused",
    "C152_comma_refuted",
    "C152_words_refuted",
    "C152_range_refuted",
    "C152_small_refuted",
    "C152_full_refuted"
   ],
   "note": "refuted as stated: '0,5' stores 0 (C152_comma_refuted), 'info' stores infinity and 'nano' stores NaN (C152_words_refuted), because what follows the number or word is ignored; '1e400' throws std::out_of_range, not SalticidaeError (C152_range_refuted), and so does '1e-310', although there are doubles of that size (C152_small_refuted). Proved: a decimal number in the range of doubles with full precision is stored as the nearest double, and exactly if it is one (C152_stores); any other decimal number is stored as the nearest double or throws std::out_of_range, and only numbers outside that range do (C152_outcome_partial); a text that begins with no number, sign or word that stod knows is refused (C152_refused). Hexadecimal numbers are a parameter."
  },
  {
   "property": "C153",
   "status": "partial",
   "theorems": [
    "C153_written_partial",
    "C153_new_partial",
    "C153_runs_partial",
    "C153_last_only",
    "C153_restart_refuted",
    "C153_two_refuted",
    "C153_short_refuted",
    "C153_long_cut",
    "C153_full_refuted"
   ],
   "note": "refuted as stated: the file is opened with O_CREAT | O_WRONLY, neither appended to nor cut, so a program started again writes over the beginning of its old log (C153_restart_refuted), and two loggers on one file write over each other's lines (C153_two_refuted); the result of write(2) is ignored, so that the rest of a line taken in part is lost (C153_short_refuted); of any text of 1024 characters or more the last character becomes NUL (C153_long_cut, from C67). Proved: a single logger whose writes are taken in full and whose headers and texts have fewer than 1024 characters writes exactly the lines, whole and in order, from the beginning of the file over what was there (C153_written_partial), and so a new or empty file holds exactly these lines (C153_new_partial); after any number of runs, one after the other, the file holds the lines of the last and then what stuck out of the file before (C153_runs_partial), so that a run that logs as many bytes as the file had leaves nothing of the runs before (C153_last_only)."
  },
  {
   "property": "C154",
   "status": "partial",
   "theorems": [
    "C154_order_partial",
    "C154_unique_partial",
    "C154_utc_partial",
    "C154_width",
    "C154_back_refuted",
    "C154_full_refuted"
   ],
   "note": "refuted as stated: the time is local time without its offset, so that when clocks are put back a later line has the smaller time (C154_back_refuted, 01:30 and then 01:05). Proved, for years 1000 to 9999: in a zone whose clocks are never put back the order of the texts is the order of the times (C154_order_partial); UTC is such a zone, shown with the Gregorian calendar defined day by day (C154_utc_partial); two times have the same text only if they are the same (C154_unique_partial); in every zone the text has 26 characters (C154_width). localtime is a parameter."
  },
  {
   "property": "C155",
   "status": "partial",
   "theorems": [
    "C155_short",
    "C155_same_partial",
    "C155_distinct_refuted",
    "C155_full_refuted"
   ],
   "note": "refuted as stated: ids that differ only after their first five bytes have the same short form (C155_distinct_refuted); nothing but log lines uses it. Proved: the short form is the first five bytes of the digest as ten hexadecimal digits in small letters, on hosts of either byte order (C155_short), and two ids share it exactly if these five bytes agree (C155_same_partial)."
  }
 ]
}