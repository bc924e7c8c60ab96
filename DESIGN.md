# Formal model of salticidae in Coq 8.16

## Approach

The C++ code is modelled function by function as total, computable Gallina
definitions.  Sequential code (streams, codecs, buffers, parsers, receive/send
loops) becomes functions `state -> input -> outcome`, where the outcome
distinguishes a normal return, a C++ exception (with the state it leaves
behind) and undefined behaviour.  Concurrent code (queues, wake-up protocol,
reference counts, task queues, connection life cycle) becomes a labelled step
function: one step is one access to shared state and a run is an arbitrary
list of labels, so a theorem about all runs covers every schedule of every
number of threads.  Everything outside the repository (kernel sockets, libuv,
OpenSSL digests, gethostbyname, the random source, user callbacks) is an
argument of the model: theorems quantify over all its behaviours.

Each area has
- `XModel.v`   definitions only, each citing the lines it models;
- `XSpec.v`    (where useful) the specification, independent of the model;
- `XProofs.v`  and similar: lemmas;
- `XProps.v`   the theorems listed in MANIFEST.json, each with `Print
               Assumptions`, and examples `Cnn_nonvacuous` showing that the
               hypotheses can be met.

A property that is false of the faithful model is not weakened silently: the
theorem `..._refuted` exhibits a concrete reachable witness and a
`..._partial` theorem proves the part that does hold.

## Trusted base

- Coq's kernel (the compiled files are checked again by coqchk).
- Axioms: for the theorems of C148 to C152 (TimeProps, DoubleProps), which speak about real
  numbers, those of Coq's standard library that its real numbers and Flocq's
  proofs rest on: ClassicalDedekindReals.sig_not_dec,
  ClassicalDedekindReals.sig_forall_dec,
  FunctionalExtensionality.functional_extensionality_dep, Classical_Prop.classic.
  For every other theorem listed in MANIFEST.json none: `Print Assumptions`
  reports "Closed under the global context".
- The reading of the C++ text, done by hand: that each definition matches the
  lines it cites.  Simplifications are stated beside the definitions and below.
- The specifications: the definitions used in the theorem statements.

## What is modelled

| File | Code | Simplifications |
|---|---|---|
| Base | byte strings, words, host byte order | |
| StreamModel | stream.h: DataStream, htole/letoh, get_hex, load_hex | allocation never fails |
| BlobModel | stream.h: Blob, Bits | word size and count are parameters |
| NetAddrModel | netaddr.h, netaddr.cpp; MsgPing/MsgPong codecs of network.h | gethostbyname is a parameter |
| MsgModel | msg.h: MsgBase, hash lists | the digest is a parameter |
| SegModel | buffer.h: SegBuffer | |
| UtilModel | util.cpp/h: strerror table, stringprintf, split, trim; crypto.h skip-CA flag | |
| RecvModel | conn.cpp _recv_data(_tls), network.h on_read, its retry timer | one connection; kernel results are inputs; SSL_read as recv |
| SendModel | conn.h write, MPSCWriteBuffer, conn.cpp _send_data(_tls) | the queue is a FIFO list (see QueueModel); SSL_write as send |
| RefModel | ref.h Box/Rc/Weak | |
| ArcModel | ref.h with atomic control block | sequential consistency |
| CallModel | event.h queues with notification, ThreadCall | the queue is a list; async_call and call enqueue with allocation on demand, so from several threads at once this holds only as far as C37 and C147 say |
| QueueModel | queue.h | sequential consistency (see WeakModel); addresses never reused |
| QueueDelModel | queue.h ~MPMCQueue | runs alone; accesses and deletions recorded |
| WeakModel | queue.h MPSC part, event.h queue with notification | weakly ordered memory (views); no load buffering; no rewind; elements are numbers |
| PoolModel | conn.h/conn.cpp ConnPool and Worker | message contents left out |
| PoolRace | which variables of a connection each step of PoolModel accesses | variables that do not change after the connection was made, atomics and the send queue (QueueModel) left out |
| DispModel | network.h MsgNetwork handler loop | handlers do not throw and do not register (HandModel) |
| HandModel | network.h the handlers' loop, reg_handler, set_handler: exceptions, registration from within handlers | a message is taken and handled in one step; a handler is a list of registrations, uses of what it captured, and a throw; queue and wake-ups as in DispModel |
| ClientModel | network.h ClientNetwork | addresses are numbers |
| PeerModel | network.h PeerNetwork: all tasks, handlers, hooks and timers | addresses, ids are numbers; hash is a parameter |
| PeerPair | two PeerModel nodes and the messages between them | the messages of a link arrive in order in each direction; connections are accepted or refused |
| RaceModel | network.h PeerNetwork: known_peers and its lock, as used by dispatcher and users | sequential consistency; members of a peer other than its connection count as one; what the functions do apart from the table is in PeerModel |
| HeartModel | network.h PeerNetwork: heartbeat and timeout of one connection, with times | times in whole milliseconds; the ping timer belongs to the peer, here to the connection (a peer has one at a time); what is sent otherwise does not matter to the timers; termination is one event |
| ClientRace | network.h ClientNetwork: addr2conn as used by dispatcher and users | nodes of the table stay where they are when it grows |
| ConfModel | util.h/util.cpp Config: options, files, command line | getopt_long's results are inputs; a file system that does not change during a load |
| EventModel | event.h: EventContext, FdEvent, TimerEvent, SigEvent, CheckEvent, TimedFdEvent | libuv is the environment; one thread; failing uv_*_start not modelled; a context is not given up for good inside one of its own callbacks |
| WorkModel | conn.cpp: all of Conn::_send_*, _recv_*, the handshake; conn.h: feed, enable_send_buffer, update_conn; crypto.h: TLS | one connection, both directions; a step is a whole callback; OpenSSL is the environment, as documented; the parser takes whole segments; uv_poll reports only what was asked for |
| CryptoModel | crypto.h: PKey, X509, TLSContext, TLS (creation, destruction), SHA256, SHA1; crypto.cpp: loading with a password | OpenSSL is the environment: a ledger of handles, answers; memory is never short |
| LifeModel | conn.h start, stop_workers, stop, ~ConnPool, connect, connect_sync, listen; conn.cpp _listen, _connect, accept_client, del_conn, release_conn; network.h MsgNetwork::stop, ~MsgNetwork | one step per dispatcher task; a terminated connection is deleted once (PoolModel); descriptors of loops and queues left out |
| ResultModel | event.h ThreadNotifier, ThreadCall::Result, Handle, the loop of ThreadCall, call, async_call | a task runs in one step; values have names that are not reused; a moved-from exception_ptr is null; a callback's effects other than set_result and throw left out (CallModel) |
| StatModel | network.h the counters of SALTICIDAE_MSG_STAT, clear_msgstat, the accesses in _send_msg and in the handlers' loop | one step per access; each counter is sequentially consistent by itself |
| ApiModel | network.h deferred sends, conn.h recoverable_error, disp_error_cb; network.cpp sends, error callback; the exceptions of all C functions | what conn->write returns is an input; tables of peers and clients change arbitrarily |
| MoveModel | the loop of finish_handshake that moves the old send queue | the rest of finish_handshake is in PeerModel |
| RetryModel | network.h PeerNetwork: the times of the retry timers; util.cpp gen_rand_timeout | times in whole milliseconds; otherwise PeerModel |
| DestroyModel | conn.h start, stop_workers, ~ConnPool; network.h the destructors; which members and virtual functions the threads use meanwhile | start, stop and destructor are called from the user's loop; tasks other than those of connections, table and timers left out |
| PeerIdModel | network.h PeerId, _get_peer_id; stream.h get_hash | SHA-256 is any function; DER bytes are given |
| CertModel | crypto.h create_self_signed_from_pubkey (times), set_verify, the store of issuers; conn.h the TLS options | the check of the TLS library itself, as documented; keys are numbers |
| FatalModel | conn.h disp_error_cb, worker_error_cb, Worker, stop_workers; event.h the stopped ThreadCall; conn.cpp accepting, dialling, ending of connections as far as tasks are posted | contents of tasks and of connections; the network is started; dials of the user's tasks are not told from those of timers |
| TimeModel | event.h the conversion of delays; util.cpp gen_rand_timeout, sec2tv, ElapsedTime | IEEE binary64 and binary32 as in Flocq, round to nearest, no excess precision; RAND_MAX of glibc; the log line of stop(true) left out |
| DoubleModel | util.h OptValDouble | stod of libstdc++ over glibc, C locale, correctly rounded; the two zeros are one; hexadecimal numbers are a parameter |
| LogModel | util.h, util.cpp Logger on a file | time and texts as formatted; no colours; the file can be opened (no mode is given for O_CREAT: permissions left out); one write(2) is one step |
| DateModel | util.cpp get_current_datetime | localtime is a parameter; years from 0; %u of a long prints it |
| ShortModel | util.h get_hex10; stream.h get_hex, for uint256_t | |
| HelpModel | util.cpp Config::print_help | names shorter than 2^31; fprintf does not fail |

## What is not modelled

Memory-order relaxations weaker than sequential consistency other than in
WeakModel; executions in which an access overtakes an earlier one of its thread
(load buffering); allocation failure; consequences of undefined behaviour (it is a distinct outcome, and
where a theorem speaks of it the claim is that it does or does not occur);
libuv and OpenSSL internals, what certificates are checked for other than as in CertModel; getopt_long
(its results are inputs of ConfModel), hexadecimal numbers in decimal options; logging to a terminal, and which events log what; the C bindings
other than those named; SIGINT handling of the applications; the destructors of the
networks, start() and stop() other than as in PoolModel, DispModel, LifeModel, DestroyModel and FatalModel; the moving of nodes when
a table is rehashed.

Found while reading, outside the models:
Config::allow_unknown_peer is stored and never read; SHA256::update of an empty container dereferences its end;
Config::msg_magic has no return statement (network.h); NotifyFd::dummy is defined only when the C
bindings are built, and without eventfd NotifyFd has an array of no elements (event.h, event.cpp); tls_verify_callback
is ignored unless skip_ca_check is switched off; netaddr_new_from_ip_port takes the port in network
byte order, netaddr_new_from_sip_port in host order; NetAddr reports errno although gethostbyname
sets h_errno; errors built from a text leave the system error code uninitialised; stop_workers tears a connection down a second time when its deletion
was still queued; get_peer_cert() on a connection just made by connect_sync races with the
end of its handshake.

## Tests of the theorems

seeded/LOG.jsonl lists edits of the models as realistic bugs would make them, the
claim each breaks and the theorems that stopped proving.

## Per property

Model, method, theorems (file), and what is missing.  "refuted as stated" means
that the faithful model violates the property; the witness is a theorem.

**C01 DataStream round trip** (proved).  Model: StreamModel (stream.h DataStream: buffer and size_t offset, wrap modulo 2^64 explicit).  Method: induction over item lists; case split on every bounds check.  Theorems in StreamProps.v: `C01_stream_roundtrip`, `C01_stream_cleared`, `C01_stream_read_prefix`, `C01_stream_write_appends`.  round trip of any sequence of items written to a stream, prefix reads, and appends

**C02 DataStream reads are bounds-checked** (partial).  Model: StreamModel (stream.h DataStream: buffer and size_t offset, wrap modulo 2^64 explicit).  Method: induction over item lists; case split on every bounds check.  Theorems in StreamProps.v: `C02_get_int_checked`, `C02_get_data_checked`, `C02_history_in_bounds_partial`, `C02_history_in_bounds_refuted`, `C02_failed_get_data_no_effect_refuted`.  refuted as stated: a failed get_data_inplace has already advanced the offset, so size() underflows and a later read can pass the check; proved while the offset arithmetic does not wrap

**C03 Wire format does not depend on host byte order** (proved).  Model: host byte order is a parameter of every codec (Base, StreamModel, BlobModel, MsgModel).  Method: equality of the encodings for both orders.  Theorems in BlobProps.v, NetAddrProps.v, StreamProps.v: `C03_blob_cross_host`, `C03_bits_cross_host`, `C03_netaddr_cross_host`, `C03_ping_wire`, `C03_int_wire_order`, `C03_int_cross_host`.  integers, Blob and Bits; NetAddr and MsgPing under C13/C20

**C04 Hex encoding round trip and validation** (partial).  Model: StreamModel, with an explicit model of sscanf("%02x").  Method: induction over the text.  Theorems in StreamProps.v: `C04_get_hex`, `C04_load_hex`, `C04_hex_roundtrip`, `C04_load_hex_odd`, `C04_load_hex_rejects_partial`, `C04_load_hex_rejects_refuted`.  refuted as stated: load_hex accepts texts such as ' 1' and '+1' that are not hex digit pairs; every genuine digit pair text and odd length is handled exactly

**C05 Conversion of a stream to bytes yields the unread bytes** (partial).  Model: StreamModel (stream.h DataStream: buffer and size_t offset, wrap modulo 2^64 explicit).  Method: induction over item lists; case split on every bounds check.  Theorems in StreamProps.v: `C05_conversions`, `C05_rvalue_conversion_partial`, `C05_rvalue_conversion_refuted`, `C05_c_functions_partial`.  refuted as stated: the rvalue conversion returns consumed bytes too; exact for a stream from which nothing was read

**C06 Blob bytes round trip** (proved).  Model: BlobModel (stream.h Blob and Bits: word arrays, literal loops, 32-bit wraps, int promotion).  Method: induction over the word list.  Theorems in BlobProps.v: `C06_blob_from_bytes`, `C06_blob_wrong_size`, `C06_blob_unserialize`, `C06_blob_truncated`, `C06_blob_serialize_appends`, `C06_blob_null_zero`.  BlobProps.v; every word width and word count, both host byte orders

**C07 Blob comparison is the numeric total order** (proved).  Model: BlobModel (stream.h Blob and Bits: word arrays, literal loops, 32-bit wraps, int promotion).  Method: induction over the word list.  Theorems in BlobProps.v: `C07_blob_eq`, `C07_blob_lt`, `C07_blob_total_order`.  BlobProps.v; every word width and positive word count, both host byte orders

**C08 Bits behaves as a bit vector** (proved).  Model: BlobModel (stream.h Blob and Bits: word arrays, literal loops, 32-bit wraps, int promotion).  Method: induction over the word list.  Theorems in BlobProps.v: `C08_bits_is_bit_vector`, `C08_bits_new_ok`.  all sizes for which nbits + word size fits in uint32

**C09 Bits serialization round trip** (proved).  Model: BlobModel (stream.h Blob and Bits: word arrays, literal loops, 32-bit wraps, int promotion).  Method: induction over the word list.  Theorems in BlobProps.v: `C09_bits_roundtrip`, `C09_bits_truncated`.  BlobProps.v; sizes up to 2^32 - 1 (the length field is 32 bits), see the hypotheses

**C10 A received Bits object is backed by storage** (partial).  Model: BlobModel (stream.h Blob and Bits: word arrays, literal loops, 32-bit wraps, int promotion).  Method: induction over the word list.  Theorems in BlobProps.v: `C10_received_bits_backed_partial`, `C10_large_bits_unbacked`, `C10_received_bits_backed_refuted`.  refuted as stated: ndata wraps for nbits > 2^32 - bits per word

**C11 Bits built from bytes holds those bytes' bits** (partial).  Model: BlobModel (stream.h Blob and Bits: word arrays, literal loops, 32-bit wraps, int promotion).  Method: induction over the word list.  Theorems in BlobProps.v: `C11_bits_from_bytes_partial`, `C11_bits_from_five_bytes_undefined`, `C11_bits_from_bytes_refuted`.  refuted as stated: for 64-bit words a byte is shifted as int by 32 or more

**C12 C binding reports short reads** (partial).  Model: StreamModel (the C wrapper of operator>>).  Method: case split.  Theorems in StreamProps.v: `C12_c_get_int_partial`, `C12_c_get_int_refuted`, `C12_c_get_data`.  refuted as stated: the C get functions report success even on failure

**C13 NetAddr codec and parser** (partial).  Model: NetAddrModel (netaddr.h, MsgPing/MsgPong; gethostbyname is a parameter).  Method: codec round trip; parser by induction over the text.  Theorems in NetAddrProps.v: `C13_netaddr_wire`, `C13_netaddr_roundtrip`, `C13_netaddr_truncated`, `C13_netaddr_equality`, `C13_parse_accepts`, `C13_parse_rejects_partial`, `C13_parse_rejects_refuted`.  refuted as stated: the parser accepts blanks or a sign before the port number, garbage after it and text after a NUL; codec and accepted texts are exact

**C14 Error codes map to their messages** (proved).  Model: UtilModel (util.cpp, util.h).  Method: tables transcribed; loops by induction over the text.  Theorems in UtilProps.v: `C14_strerror`, `C14_enum_total`.  UtilProps.v; the table and the enum are transcribed

**C15 Message wire round trip** (proved).  Model: MsgModel (msg.h; the digest is an arbitrary function).  Method: round trip by the codec lemmas of Stream.  Theorems in MsgProps.v: `C15_msg_roundtrip`, `C15_sender_builds`, `C15_magic_changed`, `C15_short_header_rejected`.  any digest, opcode width and host order, any trailing bytes

**C16 Checksum verification** (proved).  Model: MsgModel (msg.h; the digest is an arbitrary function).  Method: round trip by the codec lemmas of Stream.  Theorems in MsgProps.v: `C16_verify_iff`, `C16_verify_field`.  the digest function is arbitrary; collisions are outside the claim

**C17 Payload is handed out once** (proved).  Model: MsgModel (msg.h; the digest is an arbitrary function).  Method: round trip by the codec lemmas of Stream.  Theorems in MsgProps.v: `C17_payload_one_shot`.  Every sequence of setting and taking the payload behaves as a one-place slot: a payload can be taken once, a second take gives nothing until a new one is set.

**C18 Hash list codec** (proved).  Model: MsgModel (msg.h; the digest is an arbitrary function).  Method: round trip by the codec lemmas of Stream.  Theorems in MsgProps.v: `C18_hash_list_roundtrip`, `C18_hash_list_truncated`.  Round trip across byte orders with the hashes as loaded from 32 bytes; every proper prefix is rejected by the exception.

**C19 Messages are exchangeable between hosts of different byte order** (partial).  Model: host byte order is a parameter of every codec (Base, StreamModel, BlobModel, MsgModel).  Method: equality of the encodings for both orders.  Theorems in MsgProps.v: `C19_cross_host_partial`, `C19_checksum_cross_host`, `C19_cross_host_refuted`.  refuted as stated: a multi-byte opcode is written in host order and the checksum word is byte swapped; magic, length and payload are host independent

**C20 Ping/Pong codec** (proved).  Model: NetAddrModel (netaddr.h, MsgPing/MsgPong; gethostbyname is a parameter).  Method: codec round trip; parser by induction over the text.  Theorems in NetAddrProps.v: `C20_ping_roundtrip`, `C20_heartbeat`, `C20_ping_truncated`.  Round trip between hosts of any byte order, heartbeat distinguished, truncated input rejected.

**C21 SegBuffer is a byte queue** (proved).  Model: SegModel (buffer.h SegBuffer: list of segments with offset).  Method: refinement to a byte string, over all histories.  Theorems in SegProps.v: `C21_segbuffer_is_byte_queue`, `C21_ideal_deterministic`.  all histories of push, rewind and pop

**C22 SegBuffer::move_pop returns only unconsumed bytes** (partial).  Model: SegModel (buffer.h SegBuffer: list of segments with offset).  Method: refinement to a byte string, over all histories.  Theorems in SegProps.v: `C22_move_pop_partial`, `C22_move_pop_histories`, `C22_move_pop_refuted`.  refuted as stated: move_pop after a partial pop returns bytes already consumed and the size wraps; exact otherwise

**C23 Framing is independent of how the kernel chunks the stream** (partial).  Model: RecvModel (conn.cpp receive loops, network.h on_read and its timer; kernel results and queue answers are inputs).  Method: invariant over all event lists.  Theorems in RecvProps.v: `C23_framing_partial`, `C23_framing_refuted`.  refuted as stated: a receive loop that fills the buffer returns without parsing, so complete messages are not handed over; proved: every run hands over a prefix, in order, once each, and everything complete whenever the connection is at rest

**C24 A damaged message is skipped without losing its successors** (partial).  Model: RecvModel (conn.cpp receive loops, network.h on_read and its timer; kernel results and queue answers are inputs).  Method: invariant over all event lists.  Theorems in RecvProps.v: `C24_damaged_skipped_partial`, `C24_next_read`, `C24_damaged_skipped_refuted`.  refuted as stated: the parse loop stops at a damaged message, so an intact message already received behind it waits for the next read event; proved: exactly the intact consumed messages are handed over, and each later read gets past another damaged one or drains the buffer

**C25 Oversized messages are never delivered** (partial).  Model: RecvModel (conn.cpp receive loops, network.h on_read and its timer; kernel results and queue answers are inputs).  Method: invariant over all event lists.  Theorems in RecvProps.v: `C25_oversized_partial`, `C25_reported`, `C25_oversized_terminates`, `C25_oversized_refuted`.  refuted as stated: a read event between the error and the termination task parses the bytes behind the oversize header as messages and delivers them; proved: no delivered message exceeds the limit, the error is raised and the connection terminated

**C26 Queue-full back-pressure is lossless** (partial).  Model: RecvModel (conn.cpp receive loops, network.h on_read and its timer; kernel results and queue answers are inputs).  Method: invariant over all event lists.  Theorems in RecvProps.v: `C26_backpressure_partial`, `C26_backpressure_refuted`.  refuted as stated: a full buffer met during the retry leaves read events masked and messages undelivered; proved: order and no loss or duplication for every refusal pattern, and the retry timer hands over the refused message next

**C27 Receive buffer is bounded** (proved).  Model: RecvModel (conn.cpp receive loops, network.h on_read and its timer; kernel results and queue answers are inputs).  Method: invariant over all event lists.  Theorems in RecvProps.v: `C27_recv_buffer_bounded`.  RecvProps.v; every sequence of reads, refusals and timer calls

**C28 Receiving never stalls** (partial).  Model: RecvModel (conn.cpp receive loops, network.h on_read and its timer; kernel results and queue answers are inputs).  Method: invariant over all event lists.  Theorems in RecvProps.v: `C28_no_stall_partial`, `C28_no_stall_refuted`.  refuted as stated: after a receive loop that filled the buffer nothing ever parses it (proved: no continuation delivers); proved: a connection that stopped reading has its timer armed or a full buffer

**C29 Data received before an orderly close is delivered** (partial).  Model: RecvModel (conn.cpp receive loops, network.h on_read and its timer; kernel results and queue answers are inputs).  Method: invariant over all event lists.  Theorems in RecvProps.v: `C29_close_partial`, `C29_close_refuted`.  refuted as stated: a close seen in the same callback as data discards the data; proved for a close seen by a callback that received nothing

**C30 Malformed input never crashes the process** (partial).  Model: RecvModel (conn.cpp receive loops, network.h on_read and its timer; kernel results and queue answers are inputs).  Method: invariant over all event lists.  Theorems in RecvProps.v: `C30_malformed_input_partial`, `C30_no_crash_without_refusal`, `C30_malformed_input_refuted`.  refuted as stated: an oversize header parsed by the retry timer throws out of an unprotected callback; proved: no undefined behaviour for any input, no crash without an oversize header, none when the queue never refuses

**C31 Messages with a foreign magic are not delivered** (partial).  Model: RecvModel (conn.cpp receive loops, network.h on_read and its timer; kernel results and queue answers are inputs).  Method: invariant over all event lists.  Theorems in RecvProps.v: `C31_magic_partial`, `C31_magic_refuted`.  refuted as stated: the receive path never compares the magic; proved: the delivered message carries the wire's magic

**C32 Sent bytes are the concatenation of the writes** (proved).  Model: SendModel (conn.h write, conn.cpp send loops, MPSCWriteBuffer; one step per shared access; any number of writers).  Method: invariant over all interleavings; measure for termination.  Theorems in SendProps.v: `C32_sent_in_order`, `C32_wire_prefix`.  any number of writing threads interleaved with the worker, plain and TLS data phase; the queue is a FIFO list here

**C33 Sending never stalls** (partial).  Model: SendModel (conn.h write, conn.cpp send loops, MPSCWriteBuffer; one step per shared access; any number of writers).  Method: invariant over all interleavings; measure for termination.  Theorems in SendProps.v: `C33_event_enabled_partial`, `C33_no_stall_partial`, `C33_no_stall_refuted`.  refuted as stated: an empty write is taken for the end of the queue and what is behind it waits for a notification that never comes; proved for non-empty writes: termination of the worker on an accepting socket with everything sent

**C34 Bounded send buffer** (proved).  Model: QueueModel.  Method: invariant over all interleavings, counting blocks.  Theorems in QueueCap.v: `C34_unlimited`, `C34_fails_only_when_exhausted`, `C34_failed_without_effect`, `C34_bounded`.  With no limit no write returns false; a write returns false only after a moment during the call at which the block pool was empty, and then without having appended anything; with a limit, and the sender putting back only what it has just taken out (conn.cpp), at most cap + 2 blocks of segments are queued, under every interleaving.

**C35 End-to-end delivery** (partial).  Model: SendModel composed with RecvModel over a reliable byte stream.  Method: composition of C23 and C32.  Theorems in SendProps.v: `C35_end_to_end_partial`, `C35_end_to_end_refuted`.  refuted as stated: the receiver can stall with everything received (C28); proved: prefix, equality of opcode, magic and payload, and completeness when the receiver is at rest; equal host order at both ends

**C36 Queue is a FIFO under any interleaving (bounded use)** (proved).  Model: QueueModel (queue.h FreeList, MPMCQueue, MPSCQueue; one step per atomic access, spurious CAS failures included).  Method: invariant over all interleavings of any number of threads; simulation of a list specification (QueueSpec).  Theorems in QueueOne.v, QueueProps.v: `C36_in_turn`, `C36_fifo`, `C36_order`, `C36_all_out`.  Sequentially consistent interleavings of any number of producers (bounded calls) and one consumer, for every block size, block count and placement of spurious compare-and-swap failures. The observed calls form a history of a deque: results in enqueue order, each element dequeued at most once, failed enqueues without effect, 'empty' only when the list is empty at that moment. C36_in_turn: the same with allocation on demand, for enqueue calls that do not overlap (any number of producers taking turns, dequeueing meanwhile).

**C37 Unbounded enqueue never loses an element** (partial).  Model: QueueModel (queue.h FreeList, MPMCQueue, MPSCQueue; one step per atomic access, spurious CAS failures included).  Method: invariant over all interleavings of any number of threads; simulation of a list specification (QueueSpec).  Theorems in QueueCap.v, QueueDelProps.v, QueueOne.v: `C37_drain_partial`, `C37_bounded_partial`, `C37_refuted`, `C37_cut_refuted`, `C37_in_turn_partial`, `C37_single_partial`.  refuted as stated: with allocation on demand a producer preempted before clearing the freed flag of its block makes the block unrecyclable in time, and an element whose enqueue returned true is never dequeued (C37_refuted, 5 producers). Proved: whenever no flag store is late (timely), in particular always for calls that never allocate, for enqueue calls that do not overlap, and for a single producer, dequeueing from any quiet state returns everything enqueued. C37_cut_refuted: in another (three producers) interleaving the end producers append to is no longer connected with the front, so that from then on nothing is ever dequeued although every enqueue goes on returning true.

**C38 MPMC queue is a FIFO** (partial).  Model: QueueModel (queue.h FreeList, MPMCQueue, MPSCQueue; one step per atomic access, spurious CAS failures included).  Method: invariant over all interleavings of any number of threads; simulation of a list specification (QueueSpec).  Theorems in QueueMPMC.v: `C38_order_refuted`, `C38_empty_refuted`, `C38_turns_partial`.  refuted as stated: a consumer preempted between loading the head block and taking its reference finds the block recycled at the end of the queue; it then takes a later element first (C38_order_refuted) or reports empty although the queue never was (C38_empty_refuted), both with non-allocating calls. Proved for consumers taking turns with any number of producers in parallel: every interleaving is a FIFO history.

**C39 Sequential queue refinement** (proved).  Model: QueueModel (queue.h FreeList, MPMCQueue, MPSCQueue; one step per atomic access, spurious CAS failures included).  Method: invariant over all interleavings of any number of threads; simulation of a list specification (QueueSpec).  Theorems in QueueSeq.v: `C39_sequential`, `C39_unique`.  For every block size and pool: every sequence of calls run one after the other terminates with exactly the results of the list specification, and the results are unique.

**C40 Free list is safe against ABA** (proved).  Model: QueueModel (queue.h FreeList, MPMCQueue, MPSCQueue; one step per atomic access, spurious CAS failures included).  Method: invariant over all interleavings of any number of threads; simulation of a list specification (QueueSpec).  Theorems in FreeProps.v: `C40_single_owner`, `C40_all_available`, `C40_not_modified`, `C40_only_ends`.  Free list under any number of threads and any schedule of atomic accesses (sequentially consistent), temporary references and spurious CAS failures included.

**C41 No lost wake-up** (proved).  Model: CallModel (event.h event-driven queues, ThreadCall).  Method: invariant over all interleavings; measures.  Theorems in CallProps.v: `C41_no_lost_wakeup`.  Any number of producers and handlers; the handler returns false only after seeing the queue empty.

**C42 ThreadCall runs every task once, in order** (proved).  Model: CallModel (event.h event-driven queues, ThreadCall).  Method: invariant over all interleavings; measures.  Theorems in CallProps.v: `C42_threadcall_order`, `C42_stop`.  Whole histories of posts, loop rounds, bursts, stops and destruction.

**C43 A synchronous caller is never left waiting** (partial).  Model: CallModel (event.h event-driven queues, ThreadCall).  Method: invariant over all interleavings; measures.  Theorems in CallProps.v: `C43_answered_partial`, `C43_bounded_wait_partial`, `C43_answered_refuted`.  refuted as stated: destroying a ThreadCall deletes the queued handles without notifying the callers (C43_answered_refuted). Proved while the ThreadCall is alive: a pending call always leaves a step enabled, internal steps are finitely many, and the number of loop steps until the answer is bounded by the calls queued before.

**C44 Rc pointers: object destroyed exactly once, when the last owner goes** (proved).  Model: RefModel (ref.h sequential pointers).  Method: invariant over all histories of operations.  Theorems in RefProps.v: `C44_rc_exact`, `C44_upgrade`, `C44_count`.  All histories of Box/Rc/Weak operations (create, copy, move, assign, self-assign, downgrade, upgrade, from-Box, unwrap, drop) over any number of variables: no undefined behaviour, exact destruction, exact control block freeing, upgrade null iff destroyed, get_cnt exact (C44_count). The Box cast (C48) is excluded.

**C45 Arc pointers: object destroyed exactly once under concurrency** (partial).  Model: ArcModel (ref.h atomic control block, one step per atomic access).  Method: invariant over all interleavings.  Theorems in ArcProps.v: `C45_object_once_partial`, `C45_control_block_partial`, `C45_control_block_refuted`, `C45_overflow_refuted`.  refuted as stated: (1) two threads free the control block under a live weak handle when a downgrade overlaps the release of the previous last weak handle; (2) with 257 threads the 8-bit dcnt wraps and the control block is used after being freed. Proved: the object is destroyed at most/exactly once in every run whose upgrades are uninterrupted; the control block is safe in every run with at most 256 operations in progress and no such downgrade.

**C46 Arc control block is reclaimed** (partial).  Model: ArcModel (ref.h atomic control block, one step per atomic access).  Method: invariant over all interleavings.  Theorems in ArcProps.v: `C46_reclaimed_refuted`, `C46_reclaimed_partial`.  refuted as stated: two overlapping strong releases leak the control block. Proved for runs whose releases do not overlap.

**C47 Upgrading an atomic weak handle is safe** (partial).  Model: ArcModel (ref.h atomic control block, one step per atomic access).  Method: invariant over all interleavings.  Theorems in ArcProps.v: `C47_upgrade_partial`, `C47_upgrade_refuted`.  refuted as stated: the upgrade tests and increments ref_cnt separately; a handle to a destroyed object results. Proved when the two accesses are not separated.

**C48 BoxObj has a single owner** (partial).  Model: RefModel (ref.h sequential pointers).  Method: invariant over all histories of operations.  Theorems in RefProps.v: `C48_box_partial`, `C48_box_refuted`.  refuted as stated: static_pointer_cast(BoxObj&&) leaves the source owning the object, which is destroyed twice. Proved for all histories without that cast.

**C49 Moved-from handles are null** (partial).  Model: RefModel (ref.h sequential pointers).  Method: invariant over all histories of operations.  Theorems in RefProps.v: `C49_moved_from_partial`, `C49_moved_from_refuted`.  refuted as stated: a moved-from RcObj/ArcObj keeps its object pointer (operator bool is true, get() dangles later). Proved: moved-from Box is null; a moved-from Rc has use count 0 and dropping it has no effect.

**C50 Disconnect callback happens exactly once per connection** (proved).  Model: PoolModel (conn.h/conn.cpp ConnPool: user, dispatcher and worker loops as FIFO task queues with bursts; kernel results are inputs).  Method: invariant over all runs.  Theorems in PoolProps.v: `C50_at_most_once`, `C50_exactly_once`, `C50_loops_finish`, `C50_stop_closes`.  All runs of the pool model (user, dispatcher and any number of workers, any burst, TLS or not, any interleaving): the disconnect callback and the close happen at most once and no null/dangling access occurs (C50_at_most_once); once nothing is left to do a connection that something ended was closed and reported exactly once (C50_exactly_once); the loops do reach such a state and do finitely many actions without new events (C50_loops_finish); stopping closes every remaining socket exactly once (C50_stop_closes; without a callback).

**C51 Connected precedes disconnected** (partial).  Model: PoolModel (conn.h/conn.cpp ConnPool: user, dispatcher and worker loops as FIFO task queues with bursts; kernel results are inputs).  Method: invariant over all runs.  Theorems in PoolProps.v: `C51_connected_first_refuted`, `C51_connected_first_partial`, `C51_connected_once_partial`.  refuted as stated: a connect found established while its termination is still waiting in the dispatcher's queue (the terminate task was the last of a burst) is fed to a worker, torn down and set up: connected=true comes after connected=false. Proved for all runs without that event order, and at most one connected callback in every run.

**C52 TLS connections deliver nothing before approval** (proved).  Model: PoolModel (conn.h/conn.cpp ConnPool: user, dispatcher and worker loops as FIFO task queues with bursts; kernel results are inputs).  Method: invariant over all runs.  Theorems in PoolProps.v: `C52_tls_not_before_approval`, `C52_tls_refused`.  All runs with TLS: every received byte is preceded by a callback that returned true; after a refusal none is ever received and, once nothing is left to do, the connection was closed and reported.

**C53 The connection callback can refuse a connection** (partial).  Model: PoolModel (conn.h/conn.cpp ConnPool: user, dispatcher and worker loops as FIFO task queues with bursts; kernel results are inputs).  Method: invariant over all runs.  Theorems in PoolProps.v: `C53_refusal_refuted`, `C53_refusal_tls_partial`.  refuted as stated: without TLS the return value is ignored; everything settles, the connection stays open and goes on receiving. Proved for TLS.

**C54 Least-loaded worker selection** (proved).  Model: PoolModel (conn.h/conn.cpp ConnPool: user, dispatcher and worker loops as FIFO task queues with bursts; kernel results are inputs).  Method: invariant over all runs.  Theorems in PoolProps.v: `C54_first_least_loaded`.  The selected worker exists, has the minimal count, and every earlier worker has a larger one, for every non-empty load vector.

**C55 Asynchronous operation ids** (proved).  Model: PoolModel (conn.h/conn.cpp ConnPool: user, dispatcher and worker loops as FIFO task queues with bursts; kernel results are inputs).  Method: invariant over all runs.  Theorems in PoolProps.v: `C55_ids_distinct`, `C55_errors_carry_ids`.  In every run the ids are consecutive modulo 2^16 so any 65536 in a row differ; errors reported under an id never outnumber the failures of operations with it, and equal them once nothing is left to do. Operation modelled: connect().

**C56 Worker load accounting** (partial).  Model: PoolModel (conn.h/conn.cpp ConnPool: user, dispatcher and worker loops as FIFO task queues with bursts; kernel results are inputs).  Method: invariant over all runs.  Theorems in PoolProps.v: `C56_load_refuted`, `C56_load_partial`.  refuted as stated: in the race of C51 the dispatcher tears the connection down before the worker took it over and the count of an empty worker becomes 2^64-1. Proved for all runs without that race and without a failing feed, below 2^64 connections.

**C57 Peer registry** (partial).  Model: PeerModel (network.h PeerNetwork: the dispatcher, timers, user loop).  Method: invariant over all runs; decomposition of every step.  Theorems in PeerRegProps.v: `C57_order`, `C57_answers`, `C57_has_peer_little`, `C57_has_peer_big_refuted`, `C57_registry_partial`.  Proved for every history of the dispatcher: calls take effect in the order made, and each reports exactly the error the earlier ones imply and otherwise none; failing ones leave the state unchanged. refuted as stated on big-endian machines: has_peer reads the first byte of a size_t as a bool, so it always answers false there (C57_has_peer_big_refuted); on little-endian ones it is right. The read through bool* of a size_t is formally undefined; the model reads the byte. Not covered: exceptions other than the listed errors (bad_alloc).

**C58 Simultaneous-connect tie-break agrees on both sides** (partial).  Model: PeerModel, two nodes composed in PeerPair.  Method: computation of both handlers; witness run.  Theorems in PeerHsProps.v: `C58_decisions_agree_partial`, `C58_tie_break_refuted`.  refuted as stated: C58_tie_break_refuted runs two nodes that dial each other with nonces 8 and 21 to a settled state where one is connected and the other, with nothing left to do, is not: when the second dial is set up after the first connection was established on both sides, its ping makes one side give up the established connection while the other, still connected, ignores the reply. C58_decisions_agree_partial: if ping and reply of one connection are handled by disconnected nodes that still use the nonces they sent, both keep it when the dialling side's nonce is smaller and both drop it otherwise. Missing: handshakes that reach a node already connected.

**C59 A passive peer always accepts a dialing peer** (partial).  Model: PeerModel, two nodes composed in PeerPair.  Method: computation of both handlers; witness run.  Theorems in PeerHsProps.v: `C59_passive_accepts_partial`, `C59_nonce_drawn_refuted`, `C59_late_peer_refuted`.  refuted as stated: C59_nonce_drawn_refuted (the dialling node may draw 65535, which is the passive nonce, and is refused) and C59_late_peer_refuted (once the attempts asked for have failed the dialling node uses the passive nonce itself, and every later attempt is refused). C59_passive_accepts_partial: for every nonce drawn below the passive one both handlers accept. Missing: nonces not below the passive one.

**C60 At most one established connection per peer** (partial).  Model: PeerModel.  Method: invariant over all calm runs; witness runs.  Theorems in PeerCalmProps.v: `C60_one_connection_partial`, `C60_other_teardown_partial`, `C60_stale_dial_refuted`, `C60_connect_refuted`.  refuted as stated: C60_stale_dial_refuted (a dial that outlives the retry delay keeps pointing at the peer; when it ends the peer counts as disconnected although another connection is up) and C60_connect_refuted (a connection made with connect() to a registered peer is established; when it closes the peer stays connected to it). C60_one_connection_partial and C60_other_teardown_partial prove the claim for every calm history: no dial or conn_peer while an earlier dial of the peer is open, no handshake reply on a connect() connection, no connection serving two peers, get_peer_id only on open connections. Missing: histories that are not calm.

**C61 Deleting a peer leaves no dangling reference** (partial).  Model: PeerModel.  Method: invariant over all calm runs; witness runs.  Theorems in PeerCalmProps.v: `C61_no_dangling_partial`, `C61_stale_dial_refuted`, `C61_get_peer_id_refuted`.  refuted as stated: C61_stale_dial_refuted (del_peer, then the end of a dial that was superseded) and C61_get_peer_id_refuted (get_peer_id on a failed dial's connection, obtained from peer_cb, after del_peer; no two dials overlap). C61_no_dangling_partial: no step of a calm history, and no calm next step, accesses a deleted record. Missing: histories that are not calm.

**C62 Retry limit** (partial).  Model: PeerModel.  Method: invariant over all runs; witness run parametrised by the number of attempts.  Theorems in PeerRetryProps.v: `C62_zero_stops_partial`, `C62_keeps_trying_partial`, `C62_limit_refuted`, `C62_preempt_refuted`.  refuted as stated: C62_limit_refuted makes any number k of attempts after one conn_peer with any n > 0, each after the one before failed (the timer is never disarmed); C62_preempt_refuted leaves a peer asked for with -1 disconnected with nothing armed. C62_zero_stops_partial: every dial, in any history, goes to a registered peer whose last effective conn_peer had ntry other than 0, at its current address. C62_keeps_trying_partial: with ntry < 0 and no pre-emption the peer is not disconnected or its timer is armed and dials it. Missing: the bound n, which does not hold.

**C63 Messages queued while disconnected survive reconnection intact** (partial).  Model: MoveModel (the loop of finish_handshake over two SendModel connections), RecvModel at the far end.  Method: invariant over all interleavings.  Theorems in MoveProps.v: `C63_leftover_partial`, `C63_whole_partial`, `C63_delivered_partial`, `C63_torn_refuted`, `C63_late_write_refuted`, `C63_full_refuted`.  refuted as stated: C63_torn_refuted (the old connection broke inside a message: its tail is written to the new connection, whose receiver gets a message nobody sent), C63_late_write_refuted (a write to the old connection that returns true after the loop is never sent), C63_full_refuted (the loop ignores a refused write: the message is lost). C63_leftover_partial: what the loop takes and leaves is exactly what the old connection had not sent, in order. C63_whole_partial and C63_delivered_partial: when the old connection broke between messages, nobody else writes to the new one during the loop and its queue has room, exactly the unsent messages follow those already written to the new one, and its receiver gets a prefix of that. Missing: a break inside a message, other writers during the loop.

**C64 get_npending counts pending peers** (partial).  Model: PeerModel (network.h PeerNetwork: the dispatcher, timers, user loop).  Method: invariant over all runs; decomposition of every step.  Theorems in PeerRegProps.v: `C64_npending_refuted`, `C64_npending_partial`.  refuted as stated: the count is read back as a bool, so with two pending connections the result is undefined (an object representation that is no bool) and on a big-endian machine 0 (C64_npending_refuted). Proved: right for fewer than two on little-endian machines, defined exactly if the count modulo 256 is below two; what is counted are accepted, set up, not torn down connections with pairwise different remote addresses. Not every such connection is counted: a tear-down removes the entry of its address whoever it belongs to.

**C65 Client registry** (partial).  Model: ClientModel (network.h ClientNetwork).  Method: invariant over all runs.  Theorems in ClientProps.v: `C65_right_client_partial`, `C65_reconnect_refuted`, `C65_send_partial`.  refuted as stated: the teardown of a client's old connection erases the table entry by address, so a client that reconnected from that address before is reported unknown although its connection is live (C65_reconnect_refuted). Proved for every history: a message that is sent goes to a live connection from that address; and, if connections from one address do not overlap, it goes to the live one if there is one and is refused otherwise.

**C66 Message dispatch** (proved).  Model: DispModel (network.h MsgNetwork handler loop).  Method: invariant over all interleavings; measure.  Theorems in DispProps.v: `C66_dispatch`, `C66_progress`.  Every burst size and every interleaving of the user loop with the workers inside enqueue: each message is taken once, in order, by the handler registered for its opcode at that time or skipped if there is none; while running none is dropped, the loop is never stuck with messages left, and it stops after finitely many steps. Not covered: the dispatcher's check for a terminated connection, handlers that throw.

**C67 stringprintf returns the whole text** (partial).  Model: UtilModel (util.cpp, util.h).  Method: tables transcribed; loops by induction over the text.  Theorems in UtilProps.v: `C67_stringprintf_partial`, `C67_stringprintf_long_truncated`, `C67_stringprintf_refuted`.  refuted as stated: texts of 1024 or more characters lose their last character

**C68 split and trim** (proved).  Model: UtilModel (util.cpp, util.h).  Method: tables transcribed; loops by induction over the text.  Theorems in UtilProps.v: `C68_split`, `C68_split_unique`, `C68_split_empty_delim`, `C68_trim`, `C68_trim_unique`, `C68_trim_all`.  for non-empty delimiters; the loop never ends for an empty one (C68_split_empty_delim)

**C69 multicast reaches every listed peer or reports** (proved).  Model: PeerModel (network.h PeerNetwork: the dispatcher, timers, user loop).  Method: invariant over all runs; decomposition of every step.  Theorems in PeerRegProps.v: `C69_multicast_reports`.  Every list, every history, every set of connections accepting the message.

**C70 tls_skip_ca_check sets the flag it is given** (partial).  Model: UtilModel (util.cpp, util.h).  Method: tables transcribed; loops by induction over the text.  Theorems in UtilProps.v: `C70_tls_skip_ca_check_refuted`, `C70_tls_skip_ca_check_partial`.  refuted as stated: the pointer itself is converted to bool, so &b sets the flag for every b

**C71 Address text form** (proved).  Model: NetAddrModel (netaddr.h, MsgPing/MsgPong; gethostbyname is a parameter).  Method: codec round trip; parser by induction over the text.  Theorems in NetAddrProps.v: `C71_text`, `C71_string_injective`, `C71_string_parses_back`.  The text form is injective on well-formed addresses and parses back to an equal address when the resolver knows dotted quads (gethostbyname is a parameter).

**C72 No I/O on a closed socket** (partial).  Model: PoolModel (conn.h/conn.cpp ConnPool: user, dispatcher and worker loops as FIFO task queues with bursts; kernel results are inputs).  Method: invariant over all runs.  Theorems in PoolProps.v: `C72_io_after_close_refuted`, `C72_io_after_close_partial`.  refuted as stated: in the race of C51 with TLS the worker starts a handshake on the closed descriptor, which may belong to a newly accepted connection. Proved for all runs without that race.

**C73 Accepting survives a failing accept** (partial).  Model: PoolModel (conn.h/conn.cpp ConnPool: user, dispatcher and worker loops as FIFO task queues with bursts; kernel results are inputs).  Method: invariant over all runs.  Theorems in PoolProps.v: `C73_accept_recovers_refuted`, `C73_accept_goes_on_partial`.  refuted as stated: after one failing accept the accept event is removed and nothing re-adds it (a second listen() by the user, not modelled, would). Proved as long as no accept failed.

**C74 Peer handling never follows a null pointer or reads an unset flag** (partial).  Model: PeerModel (network.h PeerNetwork).  Method: invariants over all runs, leaf by leaf; witnesses by computation.  Theorems in PeerUbProps.v: `C74_uninit_partial`, `C74_null_partial`, `C74_uninit_refuted`, `C74_null_refuted`.  refuted as stated: C74_uninit_refuted (the very first answer of a dialled node is a pong with the null address: ping_timer_ok is read before it was ever set; the history is calm) and C74_null_refuted (conn_peer between the moment an incoming connection preempts the old one and the old one's tear-down: the saved ping is replayed on a null connection). C74_uninit_partial: an unset flag is read only by such a heartbeat answer for a peer never yet reported connected. C74_null_partial: without a conn_peer in that window no null connection is used. Freed records are the subject of C61.

**C75 The peer callback tells the truth** (partial).  Model: PeerModel (network.h PeerNetwork).  Method: invariant relating the reports made and waiting to the peer record, over all runs; calm invariant; witnesses by computation.  Theorems in PeerCbProps.v: `C75_no_double_partial`, `C75_truthful_partial`, `C75_calm_partial`, `C75_alternates_refuted`, `C75_deleted_refuted`, `C75_other_refuted`.  refuted as stated: C75_alternates_refuted (a failed dial is reported as a disconnect though nothing was reported connected), C75_deleted_refuted (del_peer of a connected peer: its connection is closed, no disconnect is reported), C75_other_refuted (a superseded dial ends: a disconnect is reported while the reported connection is up). For all histories: never two connected reports without a disconnect between (C75_no_double_partial); once nothing waits for a peer, it counts as connected exactly if the last report was connected, on the connection named (C75_truthful_partial). For calm histories (PeerCalmProps.calm) also: a disconnect after a connected report names the same connection, and the connection last reported is alive and the peer's own (C75_calm_partial).

**C76 An unknown peer in a multicast does not harm the others** (partial).  Model: PeerModel (network.h PeerNetwork: the dispatcher, timers, user loop).  Method: invariant over all runs; decomposition of every step.  Theorems in PeerRegProps.v: `C76_unknown_peer_cuts_off_refuted`, `C76_before_unknown_partial`.  refuted as stated: the loop stops with an exception at the first unknown peer; known peers after it get nothing (C76_unknown_peer_cuts_off_refuted). Proved: those listed before the first unknown one get it.

**C77 The last setting of an option wins; lists accumulate; the command line comes after the file** (proved).  Model: ConfModel (util.h/util.cpp Config).  Method: induction over nesting depth and lines against an inductive reading of the file; uniqueness and completeness of that reading.  Theorems in ConfProps.v: `C77_file`, `C77_parse`, `C77_settings_unique`, `C77_accepts`, `C77_conf_includes`.  files of lines under 65534 characters and without NUL; what getopt_long returns is an input of the model. C77_file/C77_parse: a load or parse that throws nothing gave each option the settled value; C77_settings_unique: a file determines its settings; C77_accepts: acceptable settings are not refused

**C78 Loading a configuration ends** (partial).  Model: ConfModel.  Method: induction over the rank; witness by induction over the number of nested calls.  Theorems in ConfProps.v: `C78_ends_partial`, `C78_self_refuted`.  refuted as stated: C78_self_refuted (a file that includes itself: the recursion has no end). C78_ends_partial: if the inclusions can be ranked, load ends within rank+1 nested calls

**C79 A number option gets exactly the number written, or the setting is refused with the library's error** (partial).  Model: ConfModel (stoi).  Method: stoi characterised by a separate definition of decimal; witnesses by computation.  Theorems in ConfProps.v: `C79_stores_number`, `C79_stored_partial`, `C79_trailing_refuted`, `C79_range_refuted`.  refuted as stated: C79_trailing_refuted (12abc is taken as 12), C79_range_refuted (a number too large throws std::out_of_range, not SalticidaeError). C79_stores_number: a decimal in range is stored exactly; C79_stored_partial: a number is stored exactly if the text begins with a decimal of that value in range, after white space; everything else throws and stores nothing

**C80 Reading configuration files closes them** (partial).  Model: ConfModel (c_open counts open files).  Method: induction over nesting depth and lines; witness by computation.  Theorems in ConfProps.v: `C80_closed_partial`, `C80_leak_refuted`.  refuted as stated: C80_leak_refuted (a refused value leaves the file open). C80_closed_partial: a load that throws nothing closes all it opened, and a load that throws never closes one it did not open

**C81 Each option is reached by its own name and its own letter** (partial).  Model: ConfModel (add_opt, parse_ev).  Method: invariant of registration; witnesses by computation.  Theorems in ConfProps.v: `C81_name`, `C81_letter_partial`, `C81_command_partial`, `C81_name_letter_refuted`, `C81_two_letters_refuted`.  refuted as stated: C81_two_letters_refuted (of two options with one letter the second is silently unreachable by it), C81_name_letter_refuted (a letter equal to another option's one-letter name: the wrong option is set, from a null pointer if it takes a value). C81_name: the name always reaches the option; C81_letter_partial: a name or letter reaches the first option registered that has it; C81_command_partial: without a clash of letter and name, getopt's results never lead to a null pointer

**C82 A line that is too long is refused, not cut** (proved).  Model: ConfModel (fgets).  Method: induction over the lines: some piece read fills the buffer.  Theorems in ConfProps.v: `C82_long_line`.  for text without NUL, in which strlen is the length read

**C83 A flag can be set to no in a file** (partial).  Model: ConfModel.  Method: from C77_file; witness by computation.  Theorems in ConfProps.v: `C83_unmentioned_partial`, `C83_no_is_yes_refuted`.  refuted as stated: C83_no_is_yes_refuted ('f=no' and 'f=false' switch f on). C83_unmentioned_partial: a flag is not changed by a file that does not mention it

**C84 An event is reported to the object that holds it now** (proved).  Model: EventModel (event.h).  Method: simulation EventProofs.sim between EventModel and EventSpec, in both directions, then induction over the history (EventHist).  Theorems in EventProps.v: `C84_owner`, `C84_no_ub`, `C84_asked`.  refinement of a specification without handles and pointers (EventSpec), in both directions; undefined behaviour only from misuse; reported events go back to the last add

**C85 A timer does not fire early** (partial).  Model: EventModel (timers, loop time).  Method: every waiting timer goes back to its last add (EventHist.origin), induction over the history; witness by computation.  Theorems in EventProps.v: `C85_not_early_partial`, `C85_early_refuted`.  refuted as stated: C85_early_refuted (add counts from the loop's cached time, so a timer set after 9 ms of work fires 9 ms early). C85_not_early_partial: never early in loop time; the last add counts, nothing after del or a report

**C86 Handles of event objects are freed** (partial).  Model: EventModel (handles).  Method: invariant of the simulation relation; witness by computation.  Theorems in EventProps.v: `C86_reclaimed_partial`, `C86_failed_init_refuted`.  refuted as stated: C86_failed_init_refuted (a handle whose initialisation fails is leaked). C86_reclaimed_partial: all others are held by a live object, or closed and freed; never closed twice

**C87 A callback may do to its own event what other code may** (partial).  Model: EventModel (touch).  Method: from the simulation; witness by computation.  Theorems in EventProps.v: `C87_self_partial`, `C87_self_clear_refuted`.  refuted as stated: C87_self_clear_refuted (clear, destroy, set_callback, move and assignment destroy the running function). C87_self_partial: del, add and everything on other events are defined

**C88 A TLS write that had to wait is repeated as the TLS library requires** (partial).  Model: WorkModel (send_loop, w_pend: the TLS library's demand).  Method: invariant: a pending write has a buffer older than the next copy; induction over the run; witness by computation.  Theorems in WorkProps.v: `C88_blocked_write_is_the_last`, `C88_repetition_refused`, `C88_no_refusal_partial`, `C88_repetition_refuted`.  refuted as stated: C88_repetition_refuted (every pop copies, so SSL_write gets another buffer and refuses; SSL_MODE_ACCEPT_MOVING_WRITE_BUFFER is not set). C88_blocked_write_is_the_last, C88_repetition_refused: this happens after every TLS write that blocks. C88_no_refusal_partial: not otherwise

**C89 Data the TLS library has decrypted do not lie there unseen** (proved).  Model: WorkModel (recv_loop, read).  Method: invariant over all runs.  Theorems in WorkProps.v: `C89_decrypted`, `C89_resumed`.  that reading is resumed at all is C28

**C90 The TLS handshake is carried on when it can be** (proved).  Model: WorkModel (handshake).  Method: invariant over all runs; enabledness of the next callback.  Theorems in WorkProps.v: `C90_waits_as_asked`, `C90_called_again`.  what the library does inside SSL_do_handshake is an input

**C91 Reading does not hold up writing** (partial).  Model: WorkModel (WIo).  Method: witness by induction over the number of callbacks; partial: from the writing loop.  Theorems in WorkProps.v: `C91_reading_first_refuted`, `C91_written_partial`, `C91_full_buffer_partial`.  refuted as stated: C91_reading_first_refuted (a callback for a readable and writable socket only reads; for any number of callbacks). C91_written_partial: a callback for a socket that is not readable sends; C91_full_buffer_partial: a full receive buffer gives writing its turn

**C92 A connection that has nothing to do does not keep its worker busy** (partial).  Model: WorkModel.  Method: witness by computation; partial: the reading loop takes in bytes or masks the event.  Theorems in WorkProps.v: `C92_busy_refuted`, `C92_reading_partial`, `C92_writing_partial`, `C92_unapproved_partial`.  refuted as stated: C92_busy_refuted (a TLS connection written to between handshake and approval asks for readability and does not read). C92_reading_partial, C92_writing_partial, C92_unapproved_partial: otherwise each callback gets on or stops asking

**C93 A connection is given up only when something failed** (partial).  Model: WorkModel.  Method: witnesses by computation; partial: induction over runs without faults.  Theorems in WorkProps.v: `C93_kept_partial`, `C93_other_direction_refuted`.  refuted as stated: C93_other_direction_refuted (SSL_ERROR_WANT_READ on a write and SSL_ERROR_WANT_WRITE on a read end the connection). C93_kept_partial: otherwise a connection on which nothing failed and no TLS write blocked is kept

**C94 Both byte streams of a connection keep their bytes and their order** (proved).  Model: WorkModel.  Method: induction over runs; the streams are read off the trace.  Theorems in WorkProps.v: `C94_streams`.  the parser takes whole segments here; C21-C26 have the details

**C95 An approved connection waits for what it needs** (proved).  Model: WorkModel.  Method: invariant over all runs.  Theorems in WorkProps.v: `C95_waits`, `C95_called`.  whether the parser is ever called again after a full buffer is C28

**C96 On any machine, the handler sees what was enqueued before it was woken** (proved).  Model: WeakModel.  Method: simulation of views: what the producer saw is carried by the exchange on wait_sig.  Theorems in WeakProps.v: `C96_handler_sees`.  no bound; loads are not performed before earlier accesses of their thread

**C97 On any machine, the queue keeps its elements and their order** (partial).  Model: WeakModel.  Method: invariant over all runs within the first block; witness run with a recycled block.  Theorems in WeakProps.v: `C97_order_partial`, `C97_emptied_partial`, `C97_order_refuted`.  refuted as stated: C97_order_refuted (block size 1, one producer, block recycled once: the consumer reads an old value of Block::next, relaxed load in line 253, and elements are lost; C++ allows it, processors that keep address dependencies do not do it). The partial theorems hold for all schedules and choices as long as no more elements were enqueued than fit into the first block

**C98 On any machine, elements of the queue are accessed in order** (partial).  Model: WeakModel.  Method: same invariant; witness run with a recycled block.  Theorems in WeakProps.v: `C98_no_race_partial`, `C98_race_refuted`, `C98_taken_refuted`.  refuted as stated: C98_race_refuted, C98_taken_refuted (reference counts are changed with relaxed order: a block is recycled while a producer's store into it is still under way; then the element is raced for and the consumer waits for ever). The partial theorem holds as long as no more elements were enqueued than fit into the first block

**C99 What a key, certificate, context or TLS object holds is given back once** (partial).  Model: CryptoModel.  Method: invariant: ledger = held handles + lost ones, induction over histories; witnesses by computation, the unbounded one by induction.  Theorems in CryptoProps.v: `C99_handles_partial`, `C99_all_back_partial`, `C99_refuted`, `C99_rsa_refuted`, `C99_tls_refuted`, `C99_unbounded_refuted`.  refuted as stated: C99_refuted (a PEM file with a bad object or a wrong password: the FILE is never closed), C99_rsa_refuted (EVP_PKEY lost when the RSA key cannot be set), C99_tls_refuted (SSL lost when SSL_set_fd fails), C99_unbounded_refuted (one file per failed attempt, without bound). Partial: handles are never given back twice, at most one is lost per operation that threw, and none if none threw

**C100 Operations on keys and certificates either work or throw** (partial).  Model: CryptoModel.  Method: same invariant: every held handle is live; what is reported: case analysis over the operations against the list of calls each makes; witnesses by computation.  Theorems in CryptoProps.v: `C100_defined_partial`, `C100_reported_partial`, `C100_check`, `C100_save_refuted`, `C100_empty_refuted`, `C100_long_refuted`, `C100_unsigned_refuted`.  refuted as stated: C100_save_refuted (a file that cannot be opened for writing: null FILE pointer is passed on), C100_empty_refuted (an empty vector is dereferenced), C100_long_refuted (a password longer than the library's buffer: an exception is thrown through C code). C100_unsigned_refuted (a certificate the library refuses to sign is handed out as if signed). Partial: the first three are the only undefined cases; for the other operations (C100_reported_partial) the first refused call decides the exception, and C100_check: check_privkey gives the library's answer

**C101 A PEM file is opened by its password and by no other** (partial).  Model: CryptoModel.  Method: case analysis over the file and the password; witnesses by computation.  Theorems in CryptoProps.v: `C101_password_partial`, `C101_copy_partial`, `C101_nul_refuted`, `C101_nul2_refuted`, `C101_copy_refuted`.  refuted as stated: C101_nul_refuted, C101_nul2_refuted (what follows a NUL in the password is ignored: wrong passwords accepted, right ones refused), C101_copy_refuted (the C functions leave the copy of a refused password in freed memory). Partial: passwords without NUL that fit the library's buffer; copies are wiped on success

**C102 Encodings of keys and certificates are read and written back unchanged** (partial).  Model: CryptoModel (the set of encodings is a parameter).  Method: case analysis; witness by computation.  Theorems in CryptoProps.v: `C102_round_trip_partial`, `C102_accepted_partial`, `C102_trailing_refuted`.  refuted as stated: C102_trailing_refuted (bytes after the encoding are dropped silently). Partial: exact encodings come back unchanged; what has no encoding at its beginning is refused

**C103 A digest is the hash of what was fed** (partial).  Model: CryptoModel (the hash is a parameter).  Method: induction over the sequence; witnesses by computation.  Theorems in CryptoProps.v: `C103_sha256_partial`, `C103_sha1_partial`, `C103_erased_partial`, `C103_length_refuted`, `C103_twice_refuted`, `C103_stale_refuted`.  refuted as stated: C103_length_refuted (SHA1 digests are 32 bytes, of which the hash is the first 20), C103_stale_refuted (the last 12 bytes are what the caller's vector held), C103_twice_refuted (a second digest without reset uses an erased context). Partial: SHA256, first digest after a reset; SHA1 exactly as described. The hash itself is a parameter

**C104 A deferred send that fails is reported once, with its id** (partial).  Model: ApiModel (calling threads, dispatcher, user loop as FIFO queues).  Method: invariant over all runs; witnesses by computation.  Theorems in ApiProps.v: `C104_reports_partial`, `C104_reason_partial`, `C104_settled_partial`, `C104_client_partial`, `C104_client_refuted`, `C104_fatal_refuted`.  refuted as stated: C104_client_refuted (ClientNetwork ignores the result of the write: a message refused by a full buffer is neither sent nor reported), C104_fatal_refuted (after a fatal error deferred operations are dropped silently). Partial: MsgNetwork and PeerNetwork, any interleaving without a fatal error

**C105 The C functions that send say whether the message was queued** (partial).  Model: ApiModel.  Method: case analysis; witnesses by computation.  Theorems in ApiProps.v: `C105_answer_partial`, `C105_peer_refuted`, `C105_client_refuted`.  refuted as stated: C105_peer_refuted, C105_client_refuted (true although the send buffer was full). Partial: right for connections, and right whenever the buffer takes the message

**C106 No exception leaves a C function** (partial).  Model: ApiModel (table of the C functions).  Method: case analysis over the table.  Theorems in ApiProps.v: `C106_guarded_partial`, `C106_which_partial`, `C106_refuted`.  refuted as stated: C106_refuted (e.g. msg_consume_payload on a message whose payload was consumed). C106_which_partial lists exactly the functions that let an exception through; std::bad_alloc is not considered

**C107 The error object of a C function says what happened** (proved).  Model: ApiModel (table of the C functions).  Method: case analysis over the table; invariant over all runs for the callback.  Theorems in ApiProps.v: `C107_error_object`, `C107_error_callback`, `C107_callback_any`.  the throw expressions reached from each function are transcribed in the table capi

**C108 The pool closes only descriptors it holds** (proved).  Model: LifeModel (kernel answers and descriptor numbers arbitrary; the rest of the process opens and closes too).  Method: invariant over all runs: who holds each descriptor.  Theorems in LifeProps.v: `C108_closes_its_own`.  termination by the threads is abstracted: a connection is terminated, then deleted once by the dispatcher (PoolModel)

**C109 A destroyed network holds no descriptor** (partial).  Model: LifeModel.  Method: invariant with a count of failures; witness by computation.  Theorems in LifeProps.v: `C109_nothing_left_refuted`, `C109_nothing_left_partial`.  refuted as stated: C109_nothing_left_refuted (a socket is lost when a later step of accept or connect fails, for instance creating the connection object for want of descriptors). Partial: what is left is exactly one descriptor per such failure

**C110 stop() gives the port back** (partial).  Model: LifeModel.  Method: same invariant; witness by computation.  Theorems in LifeProps.v: `C110_port_free_refuted`, `C110_port_free_partial`.  refuted as stated: C110_port_free_refuted (the networks' stop() hides that of the pool and leaves the listening socket open). Partial: the destructor and the pool's own stop() close it; stop() closes all other sockets

**C111 A network is bound to at most one port, that of its last listen()** (proved).  Model: LifeModel.  Method: same invariant.  Theorems in LifeProps.v: `C111_one_port`.  for all runs

**C112 A listen() that throws leaves no port bound** (partial).  Model: LifeModel.  Method: same invariant; witness by computation.  Theorems in LifeProps.v: `C112_failed_listen_refuted`, `C112_failed_listen_partial`.  refuted as stated: C112_failed_listen_refuted (the socket stays bound when a step after bind fails, until the next listen). Partial: if bind fails nothing is bound, the port bound before included

**C113 listen() and connect_sync() return or throw** (partial).  Model: LifeModel (the calls wait in a queue).  Method: invariant over all runs; witness by computation.  Theorems in LifeProps.v: `C113_answered_refuted`, `C113_answered_partial`.  refuted as stated: C113_answered_refuted (a call after stop() waits for ever; start() after stop() does nothing). Partial: in order, each at most once, and the first waiting call can be served while the threads run

**C114 A network works between start() and stop() only** (proved).  Model: LifeModel.  Method: induction over runs.  Theorems in LifeProps.v: `C114_between_start_and_stop`.  for all runs

**C115 A connection that is over is given up** (partial).  Model: PoolModel (references counted in PoolFree).  Method: invariants of PoolInv in runs without the race of C51; witness by computation.  Theorems in PoolFree.v: `C115_freed_refuted`, `C115_freed_partial`.  refuted as stated: C115_freed_refuted (the worker takes the connection over after the dispatcher closed it; the callback of its event object keeps it for ever). Partial: free in every run without that race, without a failing feed and without stop(); the send queue's handler is tracked separately, as release_conn does not clear it

**C116 Results of tasks are destroyed once, as what they are** (proved).  Model: ResultModel.  Method: ownership invariant over all runs, each object operation keeps it.  Theorems in ResultProps.v: `C116_destroyed`.  a moved-from std::function holds anything (a parameter of the model)

**C117 A call's result is what its task set last, or its exception** (proved).  Model: ResultModel.  Method: simulation by a specification in which results are plain contents.  Theorems in ResultProps.v: `C117_contents`.  for all runs, against a separate specification

**C118 A waiting caller returns with the value notified and is not missed** (proved).  Model: ResultModel (ThreadNotifier, both threads step by step).  Method: invariant over all interleavings; progress by cases.  Theorems in ResultProps.v: `C118_returned`, `C118_wakes`.  safety for all interleavings; the caller can return from every reachable state

**C119 The statistics count the messages sent** (partial).  Model: StatModel (one step per access of a counter).  Method: invariant over all interleavings; witness by computation.  Theorems in StatProps.v: `C119_sent_refuted`, `C119_sent_partial`.  refuted as stated: C119_sent_refuted (a refused message counts as sent). Partial: exactly the attempts are counted, in every interleaving without clear_msgstat

**C120 The statistics count the messages handled** (proved).  Model: StatModel.  Method: same invariant.  Theorems in StatProps.v: `C120_received`.  without clear_msgstat (C121)

**C121 Clearing the statistics leaves numbers and bytes of the same messages** (partial).  Model: StatModel.  Method: same invariant from the cleared state; witness by computation.  Theorems in StatProps.v: `C121_clear_refuted`, `C121_clear_partial`.  refuted as stated: C121_clear_refuted (cleared between the two accesses of an arrival: bytes without a message). Partial: cleared while nothing is under way, the counters are those of the messages since

**C122 A handler that throws ends only its own connection** (partial).  Model: HandModel.  Method: invariant over runs: what came is what was handled and what waits, the table is what was registered last; induction over handler bodies; witnesses by computation.  Theorems in HandProps.v: `C122_contained_refuted`, `C122_contained_partial`.  refuted as stated: C122_contained_refuted (an exception not derived from std::exception, or any exception of a set_handler handler, leaves the event loop's callback; messages of other connections are never handled). Partial: handlers registered with reg_handler, std::exceptions only, none replacing itself while running

**C123 Handlers may register handlers** (partial).  Model: HandModel.  Method: same invariant; a body that does not assign its own opcode keeps itself alive; witnesses by computation.  Theorems in HandProps.v: `C123_routed`, `C123_registering_refuted`, `C123_registering_partial`.  routing proved for all runs (C123_routed). refuted as stated: C123_registering_refuted (a handler that registers for its own opcode is destroyed while it runs; what it captured, and the network itself when it then throws, is used after that). Partial: no handler registers for the opcode it is registered for

**C124 Threads do not use the same part of a connection at the same time** (partial).  Model: PoolModel with the accesses of each step (PoolRace).  Method: each access of an enabled step is classified using the invariants of PoolInv; no two classes of two threads conflict; witnesses by computation.  Theorems in PoolRace.v: `C124_race_refuted`, `C124_cert_refuted`, `C124_race_partial`.  refuted as stated: C124_race_refuted (when a connection is found established while its termination waits in the dispatcher's queue, dispatcher and worker write socket event, I/O functions and queue handler at once), C124_cert_refuted (get_peer_cert() on a connection just returned by connect_sync reads what the worker sets at the end of the handshake). Partial: all runs without such a late termination, certificates read from callbacks only. The access lists of each step are part of the model

**C125 The table of peers is used safely from any thread** (partial).  Model: RaceModel (each locking and each access is a step).  Method: invariant over all interleavings: who holds the lock how, which peers the calls under way hold; the moment of a call is found in its run; witness by computation.  Theorems in RaceProps.v: `C125_race_refuted`, `C125_race_partial`, `C125_alive`, `C125_atomic`.  C125_alive, C125_atomic proved for all runs. refuted as stated: C125_race_refuted (finish_handshake assigns the peer's connection while holding the lock in shared mode only; send_msg in another thread reads it, also in shared mode). Partial: C125_race_partial shows that this is the only race

**C126 The lock of the table of peers delays no one for ever** (partial).  Model: RaceModel.  Method: same invariant; number of steps left as measure; the endless delay by a lap repeated n times.  Theorems in RaceProps.v: `C126_progress`, `C126_ends`, `C126_overtake_refuted`, `C126_overtake_partial`.  C126_progress, C126_ends proved for all runs and both kinds of lock. refuted as stated: C126_overtake_refuted (with a lock that lets readers pass a waiting writer, two threads that keep sending hold up add_peer and del_peer for ever). Partial: C126_overtake_partial, for a lock that prefers writers

**C127 Clients can be sent to from any thread** (partial).  Model: ClientRace (each access of the table is a step).  Method: invariant over all runs of the dispatcher; witnesses by computation.  Theorems in ClientRace.v: `C127_alive_refuted`, `C127_moment_refuted`, `C127_deferred_partial`.  refuted as stated: C127_alive_refuted (the table has no lock; the dispatcher destroys the entry send_msg has just found), C127_moment_refuted (on reconnection the entry is erased and inserted again; a send in between throws). Partial: C127_deferred_partial, sends by send_msg_deferred only (everything in the dispatcher's thread): answers, table and life of the entries are right

**C128 A live peer is not given up** (proved).  Model: HeartModel (times, queues of the worker, the dispatcher and the user).  Method: invariant over all runs relating the deadline, the timer, the flags and what is queued to the last ping.  Theorems in HeartProps.v: `C128_kept`.  C128_kept. Delays: L for the pool's threads, U for the user's, G age of libuv's clock.

**C129 A dead peer is found** (proved).  Model: HeartModel.  Method: same style: the last restart of the timeout is bounded by when the other side was last heard.  Theorems in HeartProps.v: `C129_found`.  C129_found: the bound is 1.5 ping periods + timeout + U + 4L after the other side was last heard.

**C130 Heartbeats are not sent too often** (proved).  Model: HeartModel.  Method: invariant: timer and flags against the times of all pings so far.  Theorems in HeartProps.v: `C130_rate`.  C130_rate.

**C131 A PeerNetwork connection in use is not timed out** (partial).  Model: HeartModel.  Method: witnesses by computation; invariant for connections that never become a peer's.  Theorems in HeartProps.v: `C131_refuted`, `C131_user_refuted`, `C131_once_partial`.  refuted as stated: C131_refuted (a connection made with connect() is ended after conn_timeout whatever comes over it: its timeout is started once and only heartbeats of peers restart it), C131_user_refuted (pongs pass through the user's thread; a user held up for conn_timeout loses every peer that answers). Partial: C131_once_partial, exactly when such a connection is ended; for peers see C128.

**C132 A node that dials a waiting node gets connected** (proved).  Model: PeerPair: two PeerModel nodes and the link between them (theorems in DialProps).  Method: invariant with six phases of the handshake over all runs; a weight that falls with every event that does not begin something gives the end, case analysis the progress.  Theorems in DialProps.v: `C132_connected`, `C132_progress`, `C132_ends`, `C132_comes`.  C132_connected (safety, and what holds at the end), C132_progress, C132_ends, C132_comes. Under the hypotheses named in the statement: one attempt is made (the next only after the handshake), connections are not refused, the nonce drawn is below the passive one (see C59 for what happens then).

**C133 A debug build is not stopped by an assertion about peers** (partial).  Model: PeerModel, PeerPair (theorems in AssertProps).  Method: four witnesses by vm_compute; for steady histories (calm ones with addresses that do not change under a dial) an invariant, beside that of C60, over all steps, and what each assertion says read off the code of the step.  Theorems in AssertProps.v: `C133_asserts_partial`, `C133_slow_dial_refuted`, `C133_new_address_refuted`, `C133_no_address_refuted`, `C133_same_address_refuted`.  refuted as stated: C133_slow_dial_refuted (two nodes on a network that loses nothing; the answer to a dial comes after the retry delay: network.h 1109), C133_new_address_refuted (set_peer_addr while the peer is dialled: 1097), C133_no_address_refuted (the null address set for a peer to be dialled: 973), C133_same_address_refuted (anyone who connects from the address to be dialled: 980). C133_asserts_partial: no assertion fails in steady histories: calm ones (see C60) in which peers get addresses at which nodes listen and nobody dials from those, who is dialled has the registered identity, addresses are set and peers added again only when what was dialled to them is over, and replies come only on the last attempt. Missing: histories that are not steady. The library is built without assertions unless a debug build is asked for (CMakeLists.txt 63-64).

**C134 Whatever breaks, a node that keeps dialling a waiting node gets connected in the end** (partial).  Model: PeerPair with ends that break (ReconSpec; theorems in ReconProps; lemmas in ReconNode, ReconSys, ReconTr, ReconInv, ReconFin).  Method: each event of the two nodes shown to be one of some twenty abstract steps; an invariant of both nodes, the links and the kills over all of them; for the last attempt a second invariant that counts the handshake messages under way; two witnesses by vm_compute.  Theorems in ReconProps.v: `C134_never_stuck`, `C134_dial_connects_partial`, `C134_dial_connects_refuted`, `C134_agree_refuted`.  refuted as stated: C134_agree_refuted (no break at all: an attempt begun before the previous one was answered; when the end of the superseded one is noticed after the handshake, the teardown, network.h 834-838, marks the peer as disconnected: at rest a connection is up and the waiting node is connected by it, the dialling node is not) and C134_dial_connects_refuted (an attempt whose handshake message the waiting node dropped stays open without answer; the next attempt, undisturbed, supersedes it, and the same teardown undoes it). Proved of all histories: C134_never_stuck (nothing undefined, no escape, no stranger; at rest, joined or trying: the dialling node is never wrong in saying it is connected) and C134_dial_connects_partial (the next undisturbed attempt connects them if the one before it has ended or was answered, and the one after it in any case). As compiled with NDEBUG: a build with assertions stops at network.h 836 instead (C133). Missing: a positive number of attempts; that rest is reached (C132 has it for the first attempt).

**C135 A peer is who it says it is** (partial).  Model: PeerModel (IdentInv, IdentProps).  Method: what a step does to connections, records and pending callbacks, from the case analysis of PeerStep; invariants over all runs: whom each record and connection belongs to, and where each message is; get_peer_id by a vm_compute witness.  Theorems in IdentProps.v: `C135_connected_as_itself`, `C135_conn_of_peer`, `C135_messages_to_addressee`, `C135_stranger_dialled`, `C135_stranger_accepted`, `C135_stranger_answers`, `C135_get_peer_id_partial`, `C135_get_peer_id_refuted`.  refuted as stated: C135_get_peer_id_refuted (with certificates: a connection dialled for peer 5 and answered by peer 7, with its own certificate, is set up and read from, since 7 is registered, network.h 793-811, and its get_peer_id, 384-390, says 5, for start_active_conn, 972-981, sets the peer before anything is known of the other end: a registered peer that gets the connections meant for another is taken for it by message handlers). Proved of all histories: the callback, get_peer_conn and messages (C135_connected_as_itself, C135_conn_of_peer, C135_messages_to_addressee), strangers (C135_stranger_dialled, C135_stranger_accepted), and C135_get_peer_id_partial: what get_peer_id says is right once the peer was reported connected over the connection, and always for accepted ones. That a certificate cannot be shown without its key is TLS's.

**C136 The connection of a connected peer is ended only for a reason of that peer** (partial).  Model: PeerModel (PeerEndProps).  Method: every step that ends a connection is classified (kill_step) by which record or message names it; invariants over all runs: attempts and pending connections belong to whom their certificate or the dial says, a connected peer has no attempt of its own; the exception by a vm_compute witness.  Theorems in PeerEndProps.v: `C136_reason_partial`, `C136_reason_answered`, `C136_reason_refuted`.  refuted as stated: C136_reason_refuted (two registered peers, 5 and 7, at one address, as after a change of certificate, both dialled: the connection dialled for 5 is answered by 7 and 7 is connected over it, but it stays the outbound connection of 5, network.h 979, since finish_handshake, 908-916, clears only that of 7; when the timer of 5 fires, start_active_conn, 977-978, ends it, and so again with every further attempt for 5). Proved: C136_reason_partial (in every history with certificates, whatever ends the connection of a connected peer i is a del_peer or conn_peer of i, or a ping with i's certificate, unless that connection had been dialled for another peer and answered by i); C136_reason_answered (so the claim holds in full where whoever answers a dial is who was dialled). Missing: the claim for connections dialled for one peer and answered by another, where it is false.

**C137 Two peers do not share a connection, and a peer whose connection is over does not stay connected** (partial).  Model: PeerModel (PeerLossProps).  Method: what a step does to the connections of peers that are up (lp), from the case analysis of PeerStep; invariant over all runs with certificates: the connection carries the certificate of the peer and belongs to it; two vm_compute witnesses.  Theorems in PeerLossProps.v: `C137_apart_partial`, `C137_reported_partial`, `C137_apart_refuted`, `C137_reported_refuted`.  refuted as stated: C137_apart_refuted (without certificates: someone connects and sends two handshake pings, claiming the addresses of two registered peers; ping_handler, network.h 1000-1048, does not look whether the connection already serves a peer, both become connected over it, and when it is torn down only the second is disconnected: the first counts as connected for ever) and C137_reported_refuted (with certificates: the connection dialled for 5 is answered by 7 and 7 is connected over it, as in C136; del_peer of 5, 1262-1270 with the destructor of Peer, 493, ends that connection and clears its peer, so on_dispatcher_teardown, 828-830, returns and 7 counts as connected for ever, is not dialled again, and no callback is made). Proved for all histories with certificates: C137_apart_partial (no two peers share a connection) and C137_reported_partial (the end of a connected peer's connection is reported, unless the connection was made with connect(), see C60, or dialled for another peer). Missing: histories without certificates (for these, calm ones: C60, C75).

**C138 A peer is dialled when conn_peer says it is** (partial).  Model: RetryModel: PeerModel with the times at which the retry timers expire (theorems in RetryProps).  Method: every timed run is a run of PeerModel; invariants over all timed runs: the delay of a record is that of the last call, a running timer has a time, not too far off and not too soon after the last attempt; a started timer is kept by every event that is not about the peer; two vm_compute witnesses.  Theorems in RetryProps.v: `C138_spacing`, `C138_first_partial`, `C138_in_time_partial`, `C138_at_once_refuted`, `C138_at_once_full_refuted`, `C138_once_refuted`.  refuted as stated: C138_at_once_refuted, C138_at_once_full_refuted (conn_peer of a connected peer: on_dispatcher_teardown, network.h 873-875, chooses no delay if the state is RESET, but 837 has just made it DISCONNECTED, so the first attempt waits for the whole delay) and C138_once_refuted (conn_peer(p, 1) of a connected peer: the end of the old connection is counted as an attempt, 869, and none is made at all, ever). Proved for all timed histories: C138_spacing (between two attempts without a conn_peer between them at least the delay passes, less the age of the loop's clock when the timer was started); C138_first_partial (conn_peer of a peer that is not connected: dialled at once, up to the lag of the dispatcher, unless one of its connections ends first or it is called again); C138_in_time_partial (with endless attempts and no second connection of the peer coming in, see C62: an unconnected peer is dialled within one and a half of the delay and the lag). Missing: the claim for a peer that is connected when conn_peer is called, and for finite numbers of attempts after the first, where it is false (C62_limit_refuted).

**C139 A network can be destroyed while it works** (partial).  Model: DestroyModel: members, virtual functions and threads of a network during start, stop and destruction (theorems in DestroyProps).  Method: invariant over all runs: state of each thread by the step stop() is at, nothing destroyed while a thread runs; a cost that each step of the destructor lowers; witnesses by vm_compute.  Theorems in DestroyProps.v: `C139_safe_partial`, `C139_ends`, `C139_nothing_left`, `C139_client_refuted`, `C139_client_send_refuted`, `C139_start_refuted`, `C139_safe_full_refuted`.  refuted as stated: C139_client_refuted, C139_client_send_refuted (ClientNetwork has no destructor, network.h 272-311: its table of clients is destroyed before ~MsgNetwork, 196, stops the threads; a client that connects meanwhile, or a message sent by send_msg_deferred before, uses the destroyed table) and C139_start_refuted (a start() that throws because a thread cannot be created, conn.h 549-556, leaves the threads created before running, and system_state 0, so that the destructor neither stops nor joins them: members they use are destroyed, and the process is aborted by the destructor of std::thread). Proved for all runs of MsgNetwork and PeerNetwork, and of a ClientNetwork that is stopped first, if threads can be created: C139_safe_partial, C139_ends, C139_nothing_left.

**C140 An id names one peer** (proved).  Model: PeerIdModel on StreamModel, BlobModel, NetAddrModel (theorems in PeerIdProps).  Method: the hashed bytes computed by C13_netaddr_wire and shown injective; the digest goes through Blob unchanged (C06, C07).  Theorems in PeerIdProps.v: `C140_addr_id`, `C140_addr_distinct`, `C140_cert_distinct`, `C140_addr_cert`, `C140_choice`.  for every digest function with 32 bytes; equality of ids is exact up to collisions of the very byte sequences hashed

**C141 Certificates are checked as configured** (partial).  Model: CertModel: validity, issuers and the verify callback (theorems in CertProps).  Method: case analysis over all certificates and times; refutations for all inputs.  Theorems in CertProps.v: `C141_default`, `C141_checked_partial`, `C141_checked_refuted`, `C141_checked_full_refuted`, `C141_callback`, `C141_self_signed_refuted`, `C141_self_signed_full_refuted`, `C141_self_signed_excused`.  refuted as stated: C141_checked_refuted (no issuer can be trusted: TLSContext, crypto.h 312-359, never puts anything into the store of issuers, so a network that checks without a callback accepts nobody) and C141_self_signed_refuted (crypto.h 240-241 sets notBefore and notAfter both to the present time: the certificate is out of date as soon as it is made). Proved: the default and the callback as stated; C141_checked_partial: the check as stated for a store that contains issuers; C141_self_signed_excused: expiry is the only fault of a self-signed certificate, so that with a callback that excuses it exactly those who trust the key accept it. The check of the TLS library itself is modelled from its documentation.

**C142 After a fatal error the network says so and goes down in order** (partial).  Model: FatalModel: queues and threads of a started network, the error callbacks, stop() (theorems in FatalProps).  Method: what a step does to errors and queues (change); invariants over all runs for errors, threads and connections; a worker ends when it has executed the tasks ahead of the one that ends it; a cost that each step of stop() lowers; two vm_compute witnesses.  Theorems in FatalProps.v: `C142_reported`, `C142_each_refuted`, `C142_each_full_refuted`, `C142_over`, `C142_answered`, `C142_workers_end`, `C142_nothing_left`, `C142_stop_ends`, `C142_opens_refuted`, `C142_closed_full_refuted`.  refuted as stated: C142_each_refuted (of the errors of two workers only the first is reported: the second is forwarded through the dispatcher's queue, conn.h 528-533, which the first has stopped, 520, so it is dropped) and C142_opens_refuted (a fatal error stops the dispatcher's queue of tasks only, not its sockets and timers: it goes on accepting and dialling, and what it opens is neither set up nor closed until stop(); nor are connections closed that are lost after the error). Proved for all runs: C142_reported (the handler is called if any error occurred; all errors of the dispatcher are reported; none more often than it occurred), C142_answered (every caller who waits is answered, once), C142_over, C142_workers_end, C142_stop_ends, C142_nothing_left.

**C143 A closed connection is freed** (partial).  Model: PoolModel; who holds a handle is defined in LeakProps.  Method: held = table, tasks, events; per-connection invariants of PoolInv/PoolCalm, draining of PoolDrain; the race of C51 makes a view that no step changes back.  Theorems in LeakProps.v: `C143_kept`, `C143_freed_partial`, `C143_freed_in_the_end_partial`, `C143_freed_refuted`, `C143_freed_full_refuted`.  refuted as stated: when a connection is found established while its termination is under way, it is torn down and closed first and taken over by its worker afterwards; the callbacks then registered hold a handle of the object they belong to, and no run whatever releases it (C143_freed_refuted). Proved: an open connection is always held (C143_kept); without that race, from the close on only posted tasks hold handles and the loops come to an end with none (C143_freed_partial, C143_freed_in_the_end_partial). Handles in messages waiting for their handler and in the tables of PeerNetwork and ClientNetwork are not part of this model.

**C144 No callback holds up its loop for long** (partial).  Model: RecvModel, DispModel, CallModel, SendModel (theorems in FairProps).  Method: receive: the loop reads only a prefix of the kernel answers, and a cost (header size times messages, plus bytes buffered) that parsing raises by at most one header; handlers and tasks: what a running call may still take; sending: segments left, and a run that feeds the loop for ever.  Theorems in FairProps.v: `C144_receive_calls`, `C144_received`, `C144_messages`, `C144_messages_zero`, `C144_tasks`, `C144_sends_partial`, `C144_sends_unbounded_refuted`, `C144_sends_full_refuted`.  refuted as stated: sending is not limited. _send_data goes on as long as it finds something in the queue, so a writer as fast as the kernel keeps the worker on that connection; from one state, any number of send() calls in one callback (C144_sends_unbounded_refuted, C144_sends_full_refuted). Proved: at most one call per segment in the queue, held, or added meanwhile (C144_sends_partial); the limits of receiving (C144_receive_calls, C144_received), of handlers (C144_messages) and of tasks (C144_tasks). A burst_size of 0 means no limit (C144_messages_zero). How long a handler or task itself takes is the user's.

**C145 The help text lists the options** (partial).  Model: HelpModel: print_help.  Method: lines of the output computed by induction over the options; columns by arithmetic modulo eight; refutations for all inputs.  Theorems in HelpProps.v: `C145_lists_options_partial`, `C145_letters_aligned_partial`, `C145_docs_aligned_partial`, `C145_docs_aligned_refuted`, `C145_unsigned_refuted`, `C145_help_full_refuted`.  refuted as stated: for an option without a letter two tabs stand in for the letter and one tab, which is as wide only if the longest name leaves 6 or 7 when divided by eight; otherwise options of both kinds are never aligned (C145_docs_aligned_refuted, for all such sets). Where char is unsigned, the -1 of an option without a letter becomes 255 and is printed as a letter (C145_unsigned_refuted, for all sets with such an option). Proved where char is signed: one line per option with its parts (C145_lists_options_partial), letters aligned (C145_letters_aligned_partial), texts aligned in the remaining cases (C145_docs_aligned_partial).

**C146 A queue that is destroyed gives back what it holds** (partial).  Model: QueueDelModel: ~MPMCQueue on the memory of QueueModel.  Method: invariant of the queue at rest (every block in the chain or in the free list, each once), induction over the destructor; runs of the model with a late store as refutations.  Theorems in QueueDelProps.v, QueueOne.v: `C146_given_back_partial`, `C146_bounded_partial`, `C146_order_partial`, `C146_lost_refuted`, `C146_full_refuted`, `C146_leak_refuted`, `C146_in_turn_partial`.  refuted as stated: with allocation on demand a late store of a producer lets the slot of an accepted element be overwritten (C146_lost_refuted) or cuts the queue in two, after which two of four blocks and the elements in them are leaked (C146_leak_refuted). Proved whenever no flag store is late (timely), in particular always for calls that never allocate or do not overlap: the destructor ends, frees every block once, touches none afterwards, and destroys exactly the elements left.

**C147 A queue that may allocate stays in order and goes on accepting** (partial).  Model: QueueModel (no new definitions).  Method: the state after a timely run at rest satisfies the sequential representation of QueueSeq (QueueLive.rest_between), from which a call run alone ends; refutation: a run of the model into a state with an invariant under which no producer gets past its loop (QueueLive.stuck_run); for every block size: the same run with blocks filled and emptied by induction (QueueBig.fill, drain, ph1 .. ph39), over memories compared place by place.  Theorems in QueueBig.v, QueueLive.v: `C147_stuck_every_size_refuted`, `C147_stuck_4096_refuted`, `C147_timely_partial`, `C147_bounded_partial`, `C147_in_turn_partial`, `C147_stuck_refuted`, `C147_order_refuted`, `C147_full_refuted`.  refuted as stated: with allocation on demand and two producers, block size 1, an interleaving leaves `tail` pointing to a full block that already has a successor. From then on every enqueue call spins for ever, whatever the other threads do (C147_stuck_refuted); the same for every block size, so for the code's 4096 too (C147_stuck_every_size_refuted, C147_stuck_4096_refuted). With block size 1 the elements already accepted come out in the wrong order (C147_order_refuted). Proved whenever no flag store is late (timely), in particular for calls that never allocate (C147_bounded_partial) and for enqueue calls that do not overlap (C147_in_turn_partial): histories are first-in first-out, and from every state at rest an enqueue call returns, with true if it may allocate.

**C148 A timer is started with the delay given** (partial).  Model: TimeModel: the conversion in TimerEvent::add.  Method: error of one rounding (Flocq), truncation; counterexample computed.  Theorems in TimeProps.v: `C148_delay`, `C148_monotone`, `C148_seconds_partial`, `C148_ms_partial`, `C148_ms_refuted`, `C148_full_refuted`, `C148_undefined_refuted`.  refuted as stated: a delay given in whole milliseconds may lose one: 1.001 s starts the timer with 1000 ms (C148_ms_refuted), because t * 1000 is truncated after rounding; and a negative, infinite or very long delay is undefined behaviour (C148_undefined_refuted). Proved for every delay from 0 to 136 years: the timer is started with the whole number of milliseconds in it, up to 1/4096 ms (C148_delay); longer delays are not started with less; whole seconds are kept exactly; whole milliseconds lose at most one.

**C149 A randomised delay lies between the delay and one and a half of it** (proved).  Model: TimeModel: gen_rand_timeout.  Method: monotonicity of rounding; exactness for whole seconds.  Theorems in TimeProps.v: `C149_range`, `C149_default`, `C149_seconds`, `C149_drawn`.  For all finite base and alpha up to 2^500 and every result of rand(): the delay lies between base and base + alpha*base, as the machine rounds them (C149_range); with the default alpha within a microsecond of [base, 1.5 base] (C149_default); for whole seconds the timer is started with between 1000 and 1500 ms for each (C149_seconds), which is what RetryModel assumes (C149_drawn). RAND_MAX of glibc.

**C150 A stopwatch measures the time that went by** (partial).  Model: TimeModel: ElapsedTime.  Method: sum of the errors of the roundings; counterexample computed.  Theorems in TimeProps.v: `C150_wall`, `C150_cpu_partial`, `C150_cpu_refuted`, `C150_full_refuted`.  refuted as stated: processor time is computed in float, so that after 19 hours of it 4 ms are reported as 0 and 1 microsecond as 7.8 ms (C150_cpu_refuted). Proved: the wall time is right to a microsecond until the year 2106 (C150_wall), and the processor time to three microseconds in the first 16.7 seconds of it (C150_cpu_partial).

**C151 A number of seconds is taken apart into seconds and microseconds** (proved).  Model: TimeModel: sec2tv.  Method: the difference is exact, the greatest double below one bounds it, error of the product.  Theorems in TimeProps.v: `C151_sec2tv`.  For every double from 0 to 2^32 the result is a valid timeval: whole seconds, microseconds below a million, together at most a microsecond (and the rounding of the product) below t. Negative numbers not covered.

**C152 A decimal option gets the number written, or the setting is refused with the library's error** (partial).  Model: DoubleModel: OptValDouble::set_val, with an explicit model of stod for decimal numbers.  Method: the text is read by induction over its digits; correct rounding is Flocq's; witnesses by arithmetic on the powers of ten and two.  Theorems in DoubleProps.v: `C152_stores`, `C152_outcome_partial`, `C152_refused`, `C152_comma_refuted`, `C152_words_refuted`, `C152_range_refuted`, `C152_small_refuted`, `C152_full_refuted`.  refuted as stated: '0,5' stores 0 (C152_comma_refuted), 'info' stores infinity and 'nano' stores NaN (C152_words_refuted), because what follows the number or word is ignored; '1e400' throws std::out_of_range, not SalticidaeError (C152_range_refuted), and so does '1e-310', although there are doubles of that size (C152_small_refuted). Proved: a decimal number in the range of doubles with full precision is stored as the nearest double, and exactly if it is one (C152_stores); any other decimal number is stored as the nearest double or throws std::out_of_range, and only numbers outside that range do (C152_outcome_partial); a text that begins with no number, sign or word that stod knows is refused (C152_refused). Hexadecimal numbers are a parameter.

**C153 A log file holds every line logged, whole and in order** (partial).  Model: LogModel: Logger on a file, its line, open, write(2) with its result, close.  Method: induction over the messages with the offset of the descriptor; witnesses computed.  Theorems in LogProps.v: `C153_written_partial`, `C153_new_partial`, `C153_runs_partial`, `C153_last_only`, `C153_restart_refuted`, `C153_two_refuted`, `C153_short_refuted`, `C153_long_cut`, `C153_full_refuted`.  refuted as stated: the file is opened with O_CREAT | O_WRONLY, neither appended to nor cut, so a program started again writes over the beginning of its old log (C153_restart_refuted), and two loggers on one file write over each other's lines (C153_two_refuted); the result of write(2) is ignored, so that the rest of a line taken in part is lost (C153_short_refuted); of any text of 1024 characters or more the last character becomes NUL (C153_long_cut, from C67). Proved: a single logger whose writes are taken in full and whose headers and texts have fewer than 1024 characters writes exactly the lines, whole and in order, from the beginning of the file over what was there (C153_written_partial), and so a new or empty file holds exactly these lines (C153_new_partial); after any number of runs, one after the other, the file holds the lines of the last and then what stuck out of the file before (C153_runs_partial), so that a run that logs as many bytes as the file had leaves nothing of the runs before (C153_last_only).

**C154 Times in a log sort as texts the way they sort as times** (partial).  Model: DateModel: get_current_datetime, its format, the second expansion.  Method: numbers with leading zeros keep their order, by induction on the width; the fields one after the other.  Theorems in DateProps.v: `C154_order_partial`, `C154_unique_partial`, `C154_utc_partial`, `C154_width`, `C154_back_refuted`, `C154_full_refuted`.  refuted as stated: the time is local time without its offset, so that when clocks are put back a later line has the smaller time (C154_back_refuted, 01:30 and then 01:05). Proved, for years 1000 to 9999: in a zone whose clocks are never put back the order of the texts is the order of the times (C154_order_partial); UTC is such a zone, shown with the Gregorian calendar defined day by day (C154_utc_partial); two times have the same text only if they are the same (C154_unique_partial); in every zone the text has 26 characters (C154_width). localtime is a parameter.

**C155 The short form of an id in log lines tells peers apart** (partial).  Model: ShortModel: get_hex10 of a uint256_t.  Method: from the theorems on Blob (C06) and hexadecimal texts (C04).  Theorems in ShortProps.v: `C155_short`, `C155_same_partial`, `C155_distinct_refuted`, `C155_full_refuted`.  refuted as stated: ids that differ only after their first five bytes have the same short form (C155_distinct_refuted); nothing but log lines uses it. Proved: the short form is the first five bytes of the digest as ten hexadecimal digits in small letters, on hosts of either byte order (C155_short), and two ids share it exactly if these five bytes agree (C155_same_partial).

