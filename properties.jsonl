{"id": "C01", "title": "DataStream round trip", "statement": "Writing any sequence of fixed-width integers and byte blobs into a DataStream with operator<< / put_data and then reading the same shapes back with operator>> / get_data_inplace returns exactly the written values in order, never throws, and leaves size() equal to zero; a stream that was cleared serves as a new one.", "quantifier": "every finite sequence of items (any widths, any values, any blob contents), both host byte orders, any bytes already consumed before", "why_tests_cant": "sequences, widths and contents are unbounded; a test samples a handful of item lists", "anchors": ["include/salticidae/stream.h: DataStream::operator<<, operator>>, put_data, get_data_inplace, size, clear"]}
{"id": "C02", "title": "DataStream reads are bounds-checked", "statement": "A read that asks for more bytes than remain throws std::ios_base::failure and changes nothing observable; a read that succeeds returns exactly the next bytes of the buffer; no read ever touches memory outside the buffer, whatever reads (failing ones included) came before.", "quantifier": "every buffer, every history of operator>> and get_data_inplace calls with any size_t lengths", "why_tests_cant": "the failure needs particular 64-bit lengths and particular histories of failed reads (size_t wrap-around)", "anchors": ["include/salticidae/stream.h: DataStream::operator>>, get_data_inplace, size"]}
{"id": "C03", "title": "Wire format does not depend on host byte order", "statement": "An integer written with s << htole(x), and Blob, Bits, NetAddr and MsgPing objects, produce the same bytes on little- and big-endian hosts, and reading them back with letoh on either host returns the original value.", "quantifier": "every value, every width, every pair of writer/reader byte orders", "why_tests_cant": "needs machines of both byte orders and all values", "anchors": ["include/salticidae/type.h: htole, letoh", "include/salticidae/stream.h: Blob, _Bits", "include/salticidae/netaddr.h: NetAddr::serialize"]}
{"id": "C04", "title": "Hex encoding round trip and validation", "statement": "get_hex produces two lower-case hex digits per unread byte and from_hex/load_hex of that text restores exactly those bytes; load_hex of any even-length text of hex digits decodes it; text of odd length or containing any non-hex character is rejected with an exception.", "quantifier": "every byte string and every text", "why_tests_cant": "infinitely many strings; the accepted ill-formed texts depend on sscanf corner cases (blanks, signs, early stop)", "anchors": ["include/salticidae/stream.h: DataStream::get_hex, load_hex, from_hex, to_hex"]}
{"id": "C05", "title": "Conversion of a stream to bytes yields the unread bytes", "statement": "Converting a DataStream to bytearray_t (lvalue or rvalue conversion), get_hex and get_hash all denote the bytes not yet consumed.", "quantifier": "every stream state reachable by successful writes and reads", "why_tests_cant": "the two conversion operators must agree for every consumption offset", "anchors": ["include/salticidae/stream.h: DataStream::operator bytearray_t, get_hex, get_hash"]}
{"id": "C06", "title": "Blob bytes round trip", "statement": "A Blob built from N/8 bytes serializes back to the same bytes; unserializing N/8 bytes and re-serializing returns the same bytes; a byte array of any other size is rejected; a never-loaded Blob serializes as N/8 zero bytes; unserializing from too few bytes throws, stores the words that were there and leaves the Blob null if it was.", "quantifier": "every N, every word type, every byte string, both byte orders", "why_tests_cant": "2^N values, all word layouts", "anchors": ["include/salticidae/stream.h: Blob::load, serialize, unserialize, Blob(bytearray_t)"]}
{"id": "C07", "title": "Blob comparison is the numeric total order", "statement": "Blob operator== holds iff the serialized bytes are equal, and operator< is the strict total order of the little-endian integers the bytes denote, so blobs are usable as map keys.", "quantifier": "all pairs/triples of blobs of every width", "why_tests_cant": "relation over all pairs of 256-bit values", "anchors": ["include/salticidae/stream.h: Blob::operator==, operator!=, operator<, cheap_hash"]}
{"id": "C08", "title": "Bits behaves as a bit vector", "statement": "After set(i)/unset(i)/flip(i) with i < size(), get(i) is 1/0/negated and get(j) for every other j < size() is unchanged; clear makes every get return 0; size never changes.", "quantifier": "every history of operations on every Bits object of every size below 2^32-63, every index, every initial (uninitialised) contents", "why_tests_cant": "unbounded histories and sizes; index arithmetic at word boundaries", "anchors": ["include/salticidae/stream.h: _Bits::get, set, unset, flip, clear, size"]}
{"id": "C09", "title": "Bits serialization round trip", "statement": "Serializing a Bits object and unserializing the result yields an object with the same size and the same bit at every index, consuming exactly the serialized bytes.", "quantifier": "every Bits object of any size, any stream suffix, any host byte order", "why_tests_cant": "unbounded sizes and contents", "anchors": ["include/salticidae/stream.h: _Bits::serialize, unserialize"]}
{"id": "C10", "title": "A received Bits object is backed by storage", "statement": "After a Bits object is unserialized from arbitrary bytes without an exception, get(i) is defined (no out-of-bounds access) for every i < size().", "quantifier": "every input byte string", "why_tests_cant": "only sizes within 63 of 2^32 break it", "anchors": ["include/salticidae/stream.h: _Bits::unserialize, get, size"]}
{"id": "C11", "title": "Bits built from bytes holds those bytes' bits", "statement": "A Bits object constructed from a byte array has size 8*len and bit i equal to bit (i mod 8) of byte (i div 8).", "quantifier": "every byte array, every datum type", "why_tests_cant": "depends on shift widths for every length and byte value", "anchors": ["include/salticidae/stream.h: _Bits::load, _Bits(bytearray_t)"]}
{"id": "C12", "title": "C binding reports short reads", "statement": "datastream_get_{u8,i8,u16,...} set *succ to true exactly when enough bytes remained, and to false otherwise.", "quantifier": "every stream and every integer width", "why_tests_cant": "for-all over streams and offsets", "anchors": ["src/stream.cpp: datastream_get_u8..datastream_get_i64 macros"]}
{"id": "C13", "title": "NetAddr codec and parser", "statement": "A NetAddr serializes to 6 bytes (network order) and unserializes to an equal address; NetAddr(\"host:port\") accepts exactly strings made of a resolvable host, a colon and a decimal port in 0..65535, and yields that port.", "quantifier": "every address and every string", "why_tests_cant": "unbounded strings; stol corner cases", "anchors": ["include/salticidae/netaddr.h: NetAddr::NetAddr, set_by_ip_port, serialize, unserialize, operator=="]}
{"id": "C14", "title": "Error codes map to their messages", "statement": "salticidae_strerror is total: each error code of the enum maps to the message of the same position, and any other integer maps to the fixed message \"invalid\" without reading outside the table.", "quantifier": "every int code", "why_tests_cant": "all integers, including negative ones", "anchors": ["include/salticidae/util.h: SalticidaeErrorCode", "src/util.cpp: SALTICIDAE_ERROR_STRINGS, salticidae_strerror"]}
{"id": "C15", "title": "Message wire round trip", "statement": "For every magic, opcode and payload shorter than 2^32 bytes, parsing the first header_size bytes of the serialized message gives the same magic, opcode and length and the remaining bytes are exactly the payload; a header shorter than header_size is rejected.", "quantifier": "every message, opcode width, checksum on/off, host byte order", "why_tests_cant": "unbounded payloads", "anchors": ["include/salticidae/msg.h: MsgBase::serialize, MsgBase(DataStream), set_payload"]}
{"id": "C16", "title": "Checksum verification", "statement": "verify_checksum of a received message is true iff the first four digest bytes of the received payload equal the four checksum bytes the sender computed; in particular an undamaged message always verifies.", "quantifier": "every message, every digest function", "why_tests_cant": "for-all payloads and digests", "anchors": ["include/salticidae/msg.h: MsgBase::get_checksum, verify_checksum"]}
{"id": "C17", "title": "Payload is handed out once", "statement": "get_payload returns exactly the payload set before, and a second get_payload without an intervening set_payload throws instead of returning stale data.", "quantifier": "every message and every history of set_payload/get_payload", "why_tests_cant": "histories are unbounded", "anchors": ["include/salticidae/msg.h: MsgBase::get_payload, set_payload"]}
{"id": "C18", "title": "Hash list codec", "statement": "gen_hash_list followed by parse_hash_list returns the same list and consumes exactly the bytes written; a truncated encoding throws.", "quantifier": "every list of fewer than 2^32 hashes and every strict prefix of its encoding", "why_tests_cant": "unbounded lists and all truncation points", "anchors": ["include/salticidae/msg.h: MsgBase::gen_hash_list, parse_hash_list"]}
{"id": "C19", "title": "Messages are exchangeable between hosts of different byte order", "statement": "A message serialized on a host of one byte order is parsed on a host of the other byte order with the same magic, opcode, length and payload, and verifies.", "quantifier": "every message, every opcode width, both byte orders", "why_tests_cant": "needs hosts of both byte orders", "anchors": ["include/salticidae/msg.h: MsgBase::serialize, get_checksum"]}
{"id": "C20", "title": "Ping/Pong codec", "statement": "A handshake Ping or Pong built from an address and a nonce is decoded to the same address and nonce, a heartbeat is decoded as a heartbeat, and no byte is left over.", "quantifier": "every address and nonce", "why_tests_cant": "for-all values", "anchors": ["include/salticidae/network.h: MsgPing, MsgPong"]}
{"id": "C21", "title": "SegBuffer is a byte queue", "statement": "Under any history of push, rewind, pop, size and clear, SegBuffer behaves as a single byte string: push appends, rewind prepends, pop(n) removes and returns the first min(n,size) bytes, size() is its length, empty() and len()=0 agree on emptiness up to empty segments.", "quantifier": "every history and all segmentations", "why_tests_cant": "unbounded histories, segment boundaries in every position", "anchors": ["include/salticidae/buffer.h: SegBuffer::push, rewind, pop, size, empty, clear"]}
{"id": "C22", "title": "SegBuffer::move_pop returns only unconsumed bytes", "statement": "move_pop removes the first segment and returns exactly its bytes that have not been popped yet, keeping size() equal to the number of bytes left.", "quantifier": "every history mixing pop and move_pop", "why_tests_cant": "requires particular interleavings of partial pops", "anchors": ["include/salticidae/buffer.h: SegBuffer::move_pop"]}
{"id": "C23", "title": "Framing is independent of how the kernel chunks the stream", "statement": "For any list of well-formed messages not exceeding the size limit, whatever sizes the receive calls return the byte stream in, the messages handed to the incoming queue are exactly those completely received so far, in order, each once.", "quantifier": "every list of messages, every prefix of their wire bytes, every chunking, every queue accepting pattern", "why_tests_cant": "exponentially many chunkings of unbounded streams", "anchors": ["include/salticidae/network.h: MsgNetwork::on_read", "src/conn.cpp: ConnPool::_recv_data", "include/salticidae/buffer.h: SegBuffer"]}
{"id": "C24", "title": "A damaged message is skipped without losing its successors", "statement": "A message whose checksum does not verify is not delivered, and every well-formed message after it is still delivered as soon as its bytes have been received.", "quantifier": "every stream with damaged payloads, every chunking", "why_tests_cant": "depends on which messages share a read event", "anchors": ["include/salticidae/network.h: MsgNetwork::on_read (checksum branch)"]}
{"id": "C25", "title": "Oversized messages are never delivered", "statement": "No message with a length field above max_msg_size is handed to a handler; its arrival raises CONN_OVERSIZED_MSG, terminates the connection, and nothing that follows in the stream is delivered.", "quantifier": "every stream, chunking, limit and event order", "why_tests_cant": "needs particular orders of the termination task and further read events", "anchors": ["include/salticidae/network.h: MsgNetwork::on_read (length check)", "include/salticidae/conn.h: Worker::feed"]}
{"id": "C26", "title": "Queue-full back-pressure is lossless", "statement": "When the incoming queue refuses a message the receiver pauses; the refused message and all later ones are delivered exactly once and in order after the queue accepts again, for any pattern of refusals.", "quantifier": "every stream, chunking, every accept/refuse pattern and every order of timer and read events", "why_tests_cant": "unbounded patterns", "anchors": ["include/salticidae/network.h: MsgNetwork::on_worker_setup (ev_enqueue_poll), on_read (msg_sleep)"]}
{"id": "C27", "title": "Receive buffer is bounded", "statement": "The number of buffered segments on a connection never exceeds max_recv_buff_size and hence buffered bytes never exceed max_recv_buff_size * recv_chunk_size.", "quantifier": "every event history, every configuration", "why_tests_cant": "histories unbounded", "anchors": ["src/conn.cpp: ConnPool::_recv_data", "include/salticidae/network.h: MsgNetwork::on_read"]}
{"id": "C28", "title": "Receiving never stalls", "statement": "Whenever the receiver is idle (no retry timer armed) and the connection is alive, either read events are enabled or no complete message is waiting in its buffer.", "quantifier": "every event history, every configuration", "why_tests_cant": "needs a burst of exactly max_recv_buff_size full chunks", "anchors": ["src/conn.cpp: ConnPool::_recv_data", "include/salticidae/network.h: MsgNetwork::on_read"]}
{"id": "C29", "title": "Data received before an orderly close is delivered", "statement": "Every complete message whose bytes were received before the peer closed the connection is handed to the incoming queue.", "quantifier": "every stream and every chunking", "why_tests_cant": "depends on the last receive call returning exactly a full chunk", "anchors": ["src/conn.cpp: ConnPool::_recv_data"]}
{"id": "C30", "title": "Malformed input never crashes the process", "statement": "Whatever bytes the peer sends and whatever the event order, on_read's exceptions are turned into termination of that connection; none escapes into the event loop.", "quantifier": "every stream, chunking and event order", "why_tests_cant": "needs the oversized header to be parsed from the retry-timer path", "anchors": ["include/salticidae/network.h: MsgNetwork::on_worker_setup, on_read", "include/salticidae/event.h: TimerEvent"]}
{"id": "C31", "title": "Messages with a foreign magic are not delivered", "statement": "A message whose magic differs from the network's configured magic is not handed to a handler.", "quantifier": "every message and magic", "why_tests_cant": "for-all messages", "anchors": ["include/salticidae/network.h: MsgNetwork::on_read, Config::msg_magic"]}
{"id": "C32", "title": "Sent bytes are the concatenation of the writes", "statement": "At every moment the bytes accepted by the kernel for a connection followed by the bytes still queued equal the concatenation, in order, of the data of all writes that returned true; nothing is lost, duplicated or reordered by partial sends, would-block results or errors.", "quantifier": "every history of writes, notifications, write events and kernel send results (partial sends included)", "why_tests_cant": "unbounded interleavings and partial-send patterns", "anchors": ["src/conn.cpp: ConnPool::_send_data", "include/salticidae/buffer.h: MPSCWriteBuffer", "include/salticidae/conn.h: Conn::write, Worker::enable_send_buffer"]}
{"id": "C33", "title": "Sending never stalls", "statement": "If data of a successful write is queued on a live established connection, then a write event is enabled or a notification is pending; so every accepted write is eventually offered to the kernel.", "quantifier": "every interleaving of writers, notifications, write events, kernel results; all write sizes including zero", "why_tests_cant": "needs particular interleavings and zero-length writes", "anchors": ["src/conn.cpp: ConnPool::_send_data", "include/salticidae/conn.h: Worker::enable_send_buffer, Conn::write", "include/salticidae/event.h: MPSCQueueEventDriven"]}
{"id": "C34", "title": "Bounded send buffer", "statement": "With max_send_buff_size = 0 write never fails; otherwise a write fails only when no free queue block is left, a failed write leaves the queued data unchanged, and the number of queued segments never exceeds the configured capacity plus two blocks.", "quantifier": "every history", "why_tests_cant": "unbounded histories", "anchors": ["include/salticidae/buffer.h: MPSCWriteBuffer::push, set_capacity", "include/salticidae/queue.h: MPMCQueue::_enqueue, set_capacity"]}
{"id": "C35", "title": "End-to-end delivery", "statement": "For two endpoints joined by a reliable byte stream, the messages delivered at the receiver are always a prefix of the messages whose send returned true at the sender, with equal opcode and payload, and all of them once everything queued was sent and received.", "quantifier": "every message list, every partial-send pattern, every chunking, every accept/refuse pattern", "why_tests_cant": "product of all the above", "anchors": ["include/salticidae/network.h: MsgNetwork::_send_msg, on_read", "src/conn.cpp: _send_data, _recv_data"]}
{"id": "C36", "title": "Queue is a FIFO under any interleaving (bounded use)", "statement": "With any number of producers and one consumer, interleaved arbitrarily, every value dequeued from the MPSC queue was enqueued by a call that reserved it, values come out in reservation order, each exactly once, also with rewind putting a value back in front, provided blocks come from the pre-allocated pool (set_capacity, bounded enqueue).", "quantifier": "every number of producers, every schedule of atomic steps, every block size, every history", "why_tests_cant": "schedules are unbounded; races need precise preemption points", "anchors": ["include/salticidae/queue.h: MPMCQueue::_enqueue, MPSCQueue::try_dequeue, rewind, FreeList::push, pop, release_ref"]}
{"id": "C37", "title": "Unbounded enqueue never loses an element", "statement": "An enqueue that returned true is eventually returned by a dequeue if dequeues go on, also when blocks are allocated on demand.", "quantifier": "every schedule", "why_tests_cant": "requires one producer to be preempted between publishing a block and clearing its freed flag while the block is filled, drained and recycled", "anchors": ["include/salticidae/queue.h: MPMCQueue::_enqueue, FreeList::pop"]}
{"id": "C38", "title": "MPMC queue is a FIFO", "statement": "With several consumers, values are dequeued in the order they were enqueued and a dequeue reports empty only if the queue was empty at some moment during the call.", "quantifier": "every schedule", "why_tests_cant": "needs a consumer preempted across a full block recycle", "anchors": ["include/salticidae/queue.h: MPMCQueue::try_dequeue"]}
{"id": "C39", "title": "Sequential queue refinement", "statement": "Run by one thread, any history of enqueue, try_dequeue and rewind behaves as a list: enqueue appends (or, when bounded and out of blocks, returns false and changes nothing), try_dequeue removes the first element or returns false iff the list is empty, rewind prepends.", "quantifier": "every history, every block size, every capacity", "why_tests_cant": "histories cross block boundaries in every way", "anchors": ["include/salticidae/queue.h: MPMCQueue, MPSCQueue"]}
{"id": "C40", "title": "Free list is safe against ABA", "statement": "Under any interleaving of push and pop, no block is handed to two owners at once, every pushed block is available again exactly once, and no node is modified while it is linked in the list.", "quantifier": "every number of threads and every schedule", "why_tests_cant": "ABA windows are invisible to tests", "anchors": ["include/salticidae/queue.h: FreeList::push, pop, release_ref"]}
{"id": "C41", "title": "No lost wake-up", "statement": "For any number of producers and any schedule, whenever an element is in an event-driven queue and no producer is inside enqueue, the consumer's handler is running or its notification is pending; so an element is never left unprocessed while everything sleeps.", "quantifier": "every schedule of producers and consumer, every handler that returns false only after seeing the queue empty", "why_tests_cant": "all interleavings of exchange/notify/reset", "anchors": ["include/salticidae/event.h: MPSCQueueEventDriven::reg_handler, enqueue, MPMCQueueEventDriven"]}
{"id": "C42", "title": "ThreadCall runs every task once, in order", "statement": "Tasks posted to a ThreadCall by one thread run in posting order, each exactly once, in the loop's thread; a synchronous call returns the value its task set, or rethrows the exception its task threw; after stop() every not yet executed task is answered with NOT_AVAIL instead of being run.", "quantifier": "every history of posts, loop iterations, burst limits and stops", "why_tests_cant": "unbounded histories", "anchors": ["include/salticidae/event.h: ThreadCall::async_call, call, stop, Handle::exec"]}
{"id": "C43", "title": "A synchronous caller is never left waiting", "statement": "Every call() that was posted is eventually answered if the loop keeps running or after the ThreadCall is destroyed.", "quantifier": "every history including destruction", "why_tests_cant": "needs destruction with queued calls", "anchors": ["include/salticidae/event.h: ThreadCall::~ThreadCall, call"]}
{"id": "C44", "title": "Rc pointers: object destroyed exactly once, when the last owner goes", "statement": "In any single-threaded history of creating, copying, moving, assigning, downgrading, upgrading and dropping handles, an object is destroyed exactly when its last strong handle disappears, never twice and never while a strong handle exists; upgrading a weak handle yields null iff the object was destroyed; the control block is freed exactly once, after the last handle of either kind; get_cnt is the number of strong handles.", "quantifier": "every history of handle operations over any number of handles and objects", "why_tests_cant": "unbounded histories", "anchors": ["include/salticidae/ref.h: _RCCtl, RcObj, WeakObj"]}
{"id": "C45", "title": "Arc pointers: object destroyed exactly once under concurrency", "statement": "With handles released by any number of threads in any interleaving of the atomic steps, the object is destroyed exactly once and only after the last strong handle is released, and the control block is never freed twice nor used after being freed.", "quantifier": "every number of handles/threads and every schedule", "why_tests_cant": "all interleavings", "anchors": ["include/salticidae/ref.h: _ARCCtl::release_ref, release_weak, add_ref, add_weak"]}
{"id": "C46", "title": "Arc control block is reclaimed", "statement": "When all strong and weak handles have been released the control block has been freed.", "quantifier": "every schedule", "why_tests_cant": "needs two releases overlapping in a specific way", "anchors": ["include/salticidae/ref.h: _ARCCtl::release_ref, release_weak"]}
{"id": "C47", "title": "Upgrading an atomic weak handle is safe", "statement": "Creating an ArcObj from an AweakObj while another thread releases the last strong handle yields either null or a handle to a live object.", "quantifier": "every schedule", "why_tests_cant": "check-then-act window", "anchors": ["include/salticidae/ref.h: RcObjBase(const WeakObjBase&)"]}
{"id": "C48", "title": "BoxObj has a single owner", "statement": "In any history of creating, moving, casting, resetting and dropping BoxObj handles each object is destroyed exactly once.", "quantifier": "every history", "why_tests_cant": "unbounded histories", "anchors": ["include/salticidae/ref.h: BoxObj, static_pointer_cast"]}
{"id": "C49", "title": "Moved-from handles are null", "statement": "After an RcObj/ArcObj is moved from, it compares equal to null.", "quantifier": "every history", "why_tests_cant": "for-all histories", "anchors": ["include/salticidae/ref.h: RcObjBase move constructor, operator bool, get"]}
{"id": "C50", "title": "Disconnect callback happens exactly once per connection", "statement": "For every connection that ended, the connection callback with connected=false is posted exactly once and its socket is closed exactly once, no matter how many of user, peer, worker errors and timeouts terminate it and in which order, as long as the pool runs (neither stopped nor ended by a fatal error; stopping closes every socket once).", "quantifier": "every schedule of user, dispatcher and worker tasks", "why_tests_cant": "all orders of concurrent terminations", "anchors": ["include/salticidae/conn.h: ConnPool::update_conn, disp_terminate, worker_terminate, del_conn, release_conn", "src/conn.cpp"]}
{"id": "C51", "title": "Connected precedes disconnected", "statement": "For every connection, the connected=true callback (if any) is posted before the connected=false callback.", "quantifier": "every schedule of user, dispatcher and worker tasks and socket events", "why_tests_cant": "needs termination to race with connection completion across a burst boundary", "anchors": ["src/conn.cpp: ConnPool::conn_server, disp_terminate", "include/salticidae/conn.h: Worker::feed"]}
{"id": "C52", "title": "TLS connections deliver nothing before approval", "statement": "On a TLS connection no received application byte reaches the receive buffer before the connection callback returned true, and none ever does if it returned false, in which case the connection is terminated.", "quantifier": "every schedule and callback outcome", "why_tests_cant": "all event orders", "anchors": ["include/salticidae/conn.h: update_conn", "src/conn.cpp: _recv_data_dummy, _recv_data_tls, _recv_data_tls_handshake"]}
{"id": "C53", "title": "The connection callback can refuse a connection", "statement": "If the connection callback returns false for a new connection, the connection is terminated.", "quantifier": "every connection, TLS or not", "why_tests_cant": "for-all configurations", "anchors": ["include/salticidae/conn.h: update_conn"]}
{"id": "C54", "title": "Least-loaded worker selection", "statement": "A new connection is assigned to the first worker having the minimal number of connections.", "quantifier": "every number of workers and loads", "why_tests_cant": "for-all load vectors", "anchors": ["include/salticidae/conn.h: ConnPool::select_worker"]}
{"id": "C55", "title": "Asynchronous operation ids", "statement": "Any 65536 consecutive asynchronous operations get pairwise different ids, and an error reported for an operation carries its id.", "quantifier": "every start value and history", "why_tests_cant": "wrap-around of a 16-bit counter", "anchors": ["include/salticidae/conn.h: gen_async_id", "include/salticidae/network.h: add_peer, conn_peer, del_peer error paths"]}
{"id": "C56", "title": "Worker load accounting", "statement": "A worker's connection count equals the number of connections fed to it and not yet torn down.", "quantifier": "every schedule", "why_tests_cant": "all orders of feed and teardown", "anchors": ["include/salticidae/conn.h: Worker::feed, unfeed, on_worker_teardown"]}
{"id": "C57", "title": "Peer registry", "statement": "has_peer reflects the order of add_peer/del_peer calls as a set; adding a known peer fails with PEER_ALREADY_EXISTS, operations on an unknown peer fail with PEER_NOT_EXIST, and failing operations change nothing.", "quantifier": "every history", "why_tests_cant": "unbounded histories", "anchors": ["include/salticidae/network.h: PeerNetwork::add_peer, del_peer, has_peer, conn_peer, set_peer_addr, get_peer_conn"]}
{"id": "C58", "title": "Simultaneous-connect tie-break agrees on both sides", "statement": "When two disconnected peers dial each other with different nonces, both ends keep the same one of the two connections; with equal nonces both are dropped.", "quantifier": "all nonces", "why_tests_cant": "2^32 nonce pairs, both roles", "anchors": ["include/salticidae/network.h: PeerNetwork::ping_handler, pong_handler, get_nonce"]}
{"id": "C59", "title": "A passive peer always accepts a dialing peer", "statement": "If only one side dials, and the other side knows the dialing peer, the connection is established on both sides.", "quantifier": "every nonce the dialing side may draw", "why_tests_cant": "two nonces out of 65536", "anchors": ["include/salticidae/network.h: get_nonce, passive_nonce, ping_handler, pong_handler"]}
{"id": "C60", "title": "At most one established connection per peer", "statement": "A peer in connected state has exactly one connection, that connection is alive or being torn down, and every other connection belonging to the peer is on its way to termination; teardown of another connection never changes the peer's connected state.", "quantifier": "every history of API calls, handshakes, timers and teardowns", "why_tests_cant": "needs a stale outbound attempt that ends after another connection was established", "anchors": ["include/salticidae/network.h: on_dispatcher_teardown, finish_handshake, start_active_conn, conn_peer"]}
{"id": "C61", "title": "Deleting a peer leaves no dangling reference", "statement": "After del_peer no later event accesses the deleted peer's record.", "quantifier": "every history", "why_tests_cant": "needs a forgotten outbound connection to be torn down after del_peer", "anchors": ["include/salticidae/network.h: del_peer, conn_peer, start_active_conn, on_dispatcher_teardown"]}
{"id": "C62", "title": "Retry limit", "statement": "conn_peer(p, ntry) with ntry = n > 0 makes at most n connection attempts, ntry = -1 keeps trying, ntry = 0 stops trying.", "quantifier": "every n and every failure history", "why_tests_cant": "depends on timers re-arming themselves", "anchors": ["include/salticidae/network.h: conn_peer, on_dispatcher_teardown"]}
{"id": "C63", "title": "Messages queued while disconnected survive reconnection intact", "statement": "After a reconnect the new connection's byte stream consists of whole messages: the handshake reply, then the messages queued on the old connection, in order.", "quantifier": "every history of partial sends before the break", "why_tests_cant": "needs the break to happen in the middle of a message", "anchors": ["include/salticidae/network.h: finish_handshake", "src/conn.cpp: _send_data"]}
{"id": "C64", "title": "get_npending counts pending peers", "statement": "get_npending returns the number of connections in the handshake phase.", "quantifier": "every number of pending connections", "why_tests_cant": "values above one", "anchors": ["include/salticidae/network.h: get_npending"]}
{"id": "C65", "title": "Client registry", "statement": "ClientNetwork::send_msg(msg, addr) reaches the live connection from addr if there is one, and reports CLIENT_NOT_EXIST otherwise.", "quantifier": "every history of connects and disconnects, including a client reconnecting from the same address", "why_tests_cant": "needs the old connection's teardown to come after the new connection's setup", "anchors": ["include/salticidae/network.h: ClientNetwork::on_dispatcher_setup, on_dispatcher_teardown, _send_msg"]}
{"id": "C66", "title": "Message dispatch", "statement": "Messages taken from the incoming queue are passed to the handler registered for their opcode, in queue order, each exactly once; messages of unregistered opcodes are skipped; the burst limit delays but never drops messages while the network is running.", "quantifier": "every message list, burst size and interleaving with loop iterations", "why_tests_cant": "unbounded lists", "anchors": ["include/salticidae/network.h: MsgNetwork::MsgNetwork (incoming_msgs.reg_handler)"]}
{"id": "C67", "title": "stringprintf returns the whole text", "statement": "stringprintf returns exactly the formatted text, of any length.", "quantifier": "every formatted text", "why_tests_cant": "only lengths >= 1024 break it", "anchors": ["src/util.cpp: vstringprintf"]}
{"id": "C68", "title": "split and trim", "statement": "join(split(s,d),d) = s, no piece contains d, and the number of pieces is one more than the number of leftmost non-overlapping occurrences, for non-empty d; trim removes exactly the leading and trailing blanks.", "quantifier": "every string and delimiter", "why_tests_cant": "unbounded strings", "anchors": ["src/util.cpp: split, trim, trim_all, trim_*"]}
{"id": "C69", "title": "multicast reaches every listed peer or reports", "statement": "After multicast_msg returned id, no error is reported for id iff the message was queued to the connection of every listed peer; otherwise exactly one error is reported for id: PEER_NOT_EXIST if some listed peer is unknown, else CONN_NOT_READY.", "quantifier": "every list of peers and every history", "why_tests_cant": "unbounded lists", "anchors": ["include/salticidae/network.h: _multicast_msg, multicast_msg, _send_msg"]}
{"id": "C70", "title": "tls_skip_ca_check sets the flag it is given", "statement": "Config::tls_skip_ca_check(&b) makes the configuration skip the CA check iff b is true.", "quantifier": "both values", "why_tests_cant": "(API misuse by type) settled by model of the conversion", "anchors": ["include/salticidae/conn.h: ConnPool::Config::tls_skip_ca_check"]}
{"id": "C71", "title": "Address text form", "statement": "Two NetAddrs that differ print different texts, and the printed a.b.c.d:port text, given back to the constructor, yields an equal address.", "quantifier": "every IPv4 address and port", "why_tests_cant": "2^48 addresses", "anchors": ["src/netaddr.cpp / include/salticidae/netaddr.h: NetAddr, operator std::string"]}
{"id": "C72", "title": "No I/O on a closed socket", "statement": "After the pool closed the socket of a connection it neither reads nor writes that descriptor on behalf of the connection; in particular never the descriptor of another connection that got the same number.", "quantifier": "every schedule of user, dispatcher and worker tasks and socket events, TLS or not", "why_tests_cant": "needs a termination racing with connection completion and reuse of the descriptor", "anchors": ["src/conn.cpp: conn_server, disp_terminate, release_conn", "include/salticidae/conn.h: Worker::feed"]}
{"id": "C73", "title": "Accepting survives a failing accept", "statement": "After accept() failed once (for example because the process ran out of descriptors), the listening pool accepts later connections.", "quantifier": "every history", "why_tests_cant": "needs the kernel to refuse an accept", "anchors": ["src/conn.cpp: ConnPool::accept_client"]}
{"id": "C74", "title": "Peer handling never follows a null pointer or reads an unset flag", "statement": "Whatever the remote nodes send and whatever the user calls, the peer network's handling of handshakes, heartbeats and timers never uses a connection pointer that is null nor a flag that was never given a value.", "quantifier": "every history of calls, messages, connections, timers and callbacks", "why_tests_cant": "needs a remote node that answers out of protocol, or a call in the moment between a preempted connection's closing and its tear-down", "anchors": ["include/salticidae/network.h: ping_handler, pong_handler, on_teardown, _conn_peer"]}
{"id": "C75", "title": "The peer callback tells the truth", "statement": "For each peer the callback alternates between connected and disconnected, beginning with connected; once no callback is waiting, the peer is connected exactly if the last callback said so, and on the connection it named; a disconnect names the connection reported before; a reported connection that ends is reported as ended.", "quantifier": "every history of calls, messages, connections, timers and callbacks, every peer", "why_tests_cant": "the sequence of callbacks depends on how dials, incoming connections, tear-downs and timers interleave", "anchors": ["include/salticidae/network.h: finish_handshake, on_teardown, _del_peer"]}
{"id": "C76", "title": "An unknown peer in a multicast does not harm the others", "statement": "multicast_msg queues the message to every listed peer that is known and whose connection accepts messages, whatever else is in the list.", "quantifier": "every list of peers", "why_tests_cant": "depends on the position of the unknown peer in the list", "anchors": ["include/salticidae/network.h: _multicast_msg, _get_peer_conn"]}
{"id": "C77", "title": "The last setting of an option wins; lists accumulate; the command line comes after the file", "statement": "After a parse that throws nothing, each text or number option has the value of the last setting of it in the order: configuration file from top to bottom (an included file at the place where it is included), then the command line from left to right; each list option has its initial elements followed by all values it was given, in that order; a flag is on if it was ever mentioned; an option that was not mentioned keeps its initial value. Blanks around names and values do not count; lines without '=' and unknown names in a file are ignored.", "quantifier": "every set of options, every contents of the files, every nesting of inclusions, every command line", "why_tests_cant": "the number of files, lines and options is unbounded", "anchors": ["src/util.cpp: Config::load, update, parse", "include/salticidae/util.h: Config::OptVal*"]}
{"id": "C78", "title": "Loading a configuration ends", "statement": "load returns or throws, whatever the configuration files contain.", "quantifier": "every contents of the files, every inclusion of one file in another", "why_tests_cant": "the shape of the inclusions is arbitrary", "anchors": ["src/util.cpp: Config::load", "include/salticidae/util.h: OptValConf::set_val"]}
{"id": "C79", "title": "A number option gets exactly the number written, or the setting is refused with the library's error", "statement": "Setting a number option to a text either stores the number that the whole text denotes, or throws SalticidaeError and stores nothing.", "quantifier": "every text", "why_tests_cant": "the set of texts is infinite; the library's tests set no malformed numbers", "anchors": ["include/salticidae/util.h: OptValInt::set_val"]}
{"id": "C80", "title": "Reading configuration files closes them", "statement": "Every file load opened is closed when load returns or throws.", "quantifier": "every contents of the files, every nesting of inclusions", "why_tests_cant": "an open descriptor has no visible effect until the process runs out of them", "anchors": ["src/util.cpp: Config::load"]}
{"id": "C81", "title": "Each option is reached by its own name and its own letter", "statement": "Once an option was registered without an exception, its name and its letter, in a file or on the command line, set that option and no other.", "quantifier": "every sequence of registrations", "why_tests_cant": "depends on clashes between names and letters of different options", "anchors": ["src/util.cpp: Config::add_opt, update, parse"]}
{"id": "C82", "title": "A line that is too long is refused, not cut", "statement": "If a configuration file contains a line longer than the line buffer then load throws; no part of the line is taken for a setting of its own and the load is not reported as successful.", "quantifier": "every contents of the file, every position of the line", "why_tests_cant": "needs lines at the limit in every position", "anchors": ["src/util.cpp: Config::load"]}
{"id": "C83", "title": "A flag can be set to no in a file", "statement": "A line 'name = no' or 'name = false' in a configuration file does not switch the flag on.", "quantifier": "every flag, every file", "why_tests_cant": "the tests never give a flag a value", "anchors": ["src/util.cpp: Config::load, update", "include/salticidae/util.h: OptValFlag"]}
{"id": "C84", "title": "An event is reported to the object that holds it now", "statement": "However event objects (FdEvent, TimerEvent, SigEvent, CheckEvent, TimedFdEvent) are moved, assigned, cleared and destroyed, an occurrence calls the current callback of the one object that holds the registration, with its descriptor and only for events asked for by the last add; a cleared, removed or destroyed registration is never reported. Only misuse (add without a registration, destroying a running callback) is undefined.", "quantifier": "every history of constructions, moves, assignments, clears, adds, dels and occurrences on any number of objects and contexts", "why_tests_cant": "dangling pointers appear only in particular interleavings of moves and occurrences", "anchors": ["include/salticidae/event.h: FdEvent, TimerEvent, TimedFdEvent, SigEvent, CheckEvent"]}
{"id": "C85", "title": "A timer does not fire early", "statement": "After add(t) the timer's callback is not called before t seconds have passed since that add; a newer add replaces the older; after del, or after it was reported once, it does not fire again until the next add.", "quantifier": "every history, every time between the steps", "why_tests_cant": "timing dependent", "anchors": ["include/salticidae/event.h: TimerEvent::add, TimedFdEvent::add"]}
{"id": "C86", "title": "Handles of event objects are freed", "statement": "Every handle an event object allocates is closed when the object is cleared, overwritten or destroyed, is freed later, never closed twice nor used after that, and none is left once its EventContext is gone.", "quantifier": "every history, including constructions that throw", "why_tests_cant": "leaks have no visible effect; failing initialisations are rare", "anchors": ["include/salticidae/event.h: clear, destructors, constructors, _event_context_deleter"]}
{"id": "C87", "title": "A callback may do to its own event what other code may", "statement": "Inside its callback an event object may be removed, re-added, cleared, replaced, moved, destroyed or given another callback.", "quantifier": "every kind of event object, every state", "why_tests_cant": "use of a destroyed function object shows only sometimes", "anchors": ["include/salticidae/event.h: clear, set_callback, operator=, fd_then, timer_then"]}
{"id": "C88", "title": "A TLS write that had to wait is repeated as the TLS library requires", "statement": "When the socket's buffer is full during a write on a TLS connection, the write is repeated later in the way the TLS library demands, and the connection goes on.", "quantifier": "every history of writes, callbacks and answers of kernel and TLS library", "why_tests_cant": "needs a full socket buffer at the right moment; the library's demand is on a buffer's address", "anchors": ["src/conn.cpp: _send_data_tls", "include/salticidae/buffer.h: MPSCWriteBuffer::move_pop, rewind", "include/salticidae/crypto.h: TLS"]}
{"id": "C89", "title": "Data the TLS library has decrypted do not lie there unseen", "statement": "After each callback, data the TLS library holds decrypted are left there only while reading is suspended because the receive buffer is full; when it has room again they are taken before the socket is waited for.", "quantifier": "every history, every record and chunk size", "why_tests_cant": "depends on how records and chunks happen to align", "anchors": ["src/conn.cpp: _recv_data_tls", "include/salticidae/network.h: on_read"]}
{"id": "C90", "title": "The TLS handshake is carried on when it can be", "statement": "During the handshake the worker waits for exactly that readiness of the socket the TLS library asked for last, and calls the library again when it comes.", "quantifier": "every history of handshake answers", "why_tests_cant": "needs every order of readiness and answers", "anchors": ["src/conn.cpp: _send_data_tls_handshake, _recv_data_tls_handshake", "include/salticidae/crypto.h: do_handshake"]}
{"id": "C91", "title": "Reading does not hold up writing", "statement": "Data waiting to be written leave when the socket is writable, however much arrives.", "quantifier": "every number of callbacks, every rate of arrival", "why_tests_cant": "a bound on the number of callbacks cannot be tested", "anchors": ["include/salticidae/conn.h: Worker::feed", "src/conn.cpp: _recv_data, _send_data"]}
{"id": "C92", "title": "A connection that has nothing to do does not keep its worker busy", "statement": "No callback of a connection leaves everything as it was while the readiness that called it persists.", "quantifier": "every reachable state of a connection", "why_tests_cant": "costs only processor time; depends on timing between user code and worker", "anchors": ["include/salticidae/conn.h: enable_send_buffer, update_conn", "src/conn.cpp: _recv_data_dummy, _recv_data_tls_handshake"]}
{"id": "C93", "title": "A connection is given up only when something failed", "statement": "The worker gives a connection up only if the peer closed it, the kernel or the TLS library reported a failure, the user refused or closed it; that the TLS library wants to read in order to write, or to write in order to read, is no failure.", "quantifier": "every history of answers", "why_tests_cant": "such answers are rare (key updates, renegotiation)", "anchors": ["src/conn.cpp: _send_data_tls, _recv_data_tls"]}
{"id": "C94", "title": "Both byte streams of a connection keep their bytes and their order", "statement": "What was sent off followed by what waits is what was written; what the parser got followed by what waits for it is what arrived; with and without TLS, both directions interleaved.", "quantifier": "every history, any answers, any sizes", "why_tests_cant": "every interleaving of the two directions and of suspensions", "anchors": ["src/conn.cpp: _send_data, _recv_data, _send_data_tls, _recv_data_tls"]}
{"id": "C95", "title": "An approved connection waits for what it needs", "statement": "An approved connection that is not given up asks to be called when readable unless reading is suspended, and when writable unless its last writing callback found nothing left to write.", "quantifier": "every history", "why_tests_cant": "a forgotten event shows only as a hang under some interleaving", "anchors": ["src/conn.cpp: _send_data, _recv_data", "include/salticidae/conn.h: enable_send_buffer, update_conn"]}
{"id": "C96", "title": "On any machine, the handler sees what was enqueued before it was woken", "statement": "Also when threads see each other's writes late and in different orders, as far as the memory orders in the code allow: after enqueue returned true, the queue's handler is started once more before everything is quiet again, and in that start it sees everything the enqueuing thread had seen and written.", "quantifier": "every schedule, every number of producers, every choice of what each load sees", "why_tests_cant": "tests run on one kind of machine, whose memory is stronger than what the code asks for", "anchors": ["include/salticidae/event.h: MPSCQueueEventDriven::enqueue, reg_handler, reset_sig"]}
{"id": "C97", "title": "On any machine, the queue keeps its elements and their order", "statement": "Under the memory orders the code asks for, elements come out of an MPSC queue in the order in which they went in, each once, and the handler that is told there is nothing left has taken everything that was enqueued before.", "quantifier": "every schedule, every number of producers, every choice of what each load sees", "why_tests_cant": "such executions need a machine with weaker memory than the test machine", "anchors": ["include/salticidae/queue.h: MPMCQueue::enqueue, MPSCQueue::try_dequeue, FreeList", "include/salticidae/event.h: MPSCQueueEventDriven"]}
{"id": "C98", "title": "On any machine, elements of the queue are accessed in order", "statement": "Under the memory orders the code asks for, no element is written by one thread while another may read or write it, and an element stored can be taken.", "quantifier": "every schedule, every number of producers, every choice of what each load sees", "why_tests_cant": "data races show only on other machines, and rarely", "anchors": ["include/salticidae/queue.h: MPMCQueue::enqueue, MPSCQueue::try_dequeue, FreeList::release_ref"]}
{"id": "C99", "title": "What a key, certificate, context or TLS object holds is given back once", "statement": "Whatever is created, moved, used and destroyed, and whatever fails on the way: OpenSSL handles and files are given back exactly once, and when no object is left none is left open.", "quantifier": "every history of operations, every answer of the library", "why_tests_cant": "leaks on failure paths are not observable by a functional test", "anchors": ["include/salticidae/crypto.h: PKey, X509, TLSContext, TLS"]}
{"id": "C100", "title": "Operations on keys and certificates either work or throw", "statement": "Every operation on an object that was not moved from returns a result or throws an error; none is undefined. When OpenSSL refuses a call the operation throws the error meant for that call; when it refuses none, the operation returns.", "quantifier": "every history, every argument, every file", "why_tests_cant": "undefined behaviour may look like success", "anchors": ["include/salticidae/crypto.h: create_from_der, create_privkey_from_der, save_to_file, save_privkey_to_file, create_from_pem_file, create_privkey_from_pem_file, _tls_pem_with_passwd"]}
{"id": "C101", "title": "A PEM file is opened by its password and by no other", "statement": "Loading a key or certificate from a PEM file yields the object in the file if it is not encrypted or the password is the right one, and throws otherwise; copies of the password are wiped.", "quantifier": "every file, every password", "why_tests_cant": "a test tries a few passwords", "anchors": ["include/salticidae/crypto.h: create_from_pem_file, create_privkey_from_pem_file, _tls_pem_with_passwd", "src/crypto.cpp: x509_new_from_pem_file, pkey_new_privkey_from_pem_file"]}
{"id": "C102", "title": "Encodings of keys and certificates are read and written back unchanged", "statement": "An object created from an encoding has this encoding; what is not an encoding is refused.", "quantifier": "every text", "why_tests_cant": "the space of texts is infinite", "anchors": ["include/salticidae/crypto.h: create_from_der, create_privkey_from_der, get_der, get_privkey_der"]}
{"id": "C103", "title": "A digest is the hash of what was fed", "statement": "SHA256 and SHA1 objects: digest() and digest(md) yield the hash of everything fed since the last reset, and nothing else.", "quantifier": "every sequence of reset, update and digest, every data", "why_tests_cant": "the space of sequences is infinite; bytes left over in the caller's vector are easily overlooked", "anchors": ["include/salticidae/crypto.h: SHA256, SHA1"]}
{"id": "C104", "title": "A deferred send that fails is reported once, with its id", "statement": "send_msg_deferred of all three networks returns an id; if the message does not get into a connection's send buffer, the error callback is called exactly once with this id and an error that says why; if it does, never. Reports come in the order of the calls.", "quantifier": "every interleaving of calling threads, dispatcher and user loop, every answer of the connections", "why_tests_cant": "a missing report shows only under back-pressure or after errors", "anchors": ["include/salticidae/network.h: MsgNetwork::_send_msg_deferred, PeerNetwork::_send_msg_deferred, ClientNetwork::_send_msg_deferred", "include/salticidae/conn.h: recoverable_error, gen_async_id, disp_error_cb"]}
{"id": "C105", "title": "The C functions that send say whether the message was queued", "statement": "msgnetwork_send_msg, peernetwork_send_msg and clientnetwork_send_msg return true exactly if the message was put into a send buffer.", "quantifier": "every state, every answer of the connection", "why_tests_cant": "needs a full send buffer", "anchors": ["src/network.cpp: msgnetwork_send_msg, peernetwork_send_msg, clientnetwork_send_msg"]}
{"id": "C106", "title": "No exception leaves a C function", "statement": "A C program cannot catch exceptions: every function of the C interface returns.", "quantifier": "every function of the C interface, every failure", "why_tests_cant": "failures of the library underneath are hard to provoke", "anchors": ["src/network.cpp, src/crypto.cpp, src/event.cpp, src/msg.cpp, src/netaddr.cpp, src/stream.cpp", "include/salticidae/util.h: SALTICIDAE_CERROR_TRY, SALTICIDAE_CERROR_CATCH"]}
{"id": "C107", "title": "The error object of a C function says what happened", "statement": "After a C function that takes an error object: the code is 0 exactly if there is a result; otherwise it is the code of the library's error, or UNKNOWN; the operating system's code is set. The C error callback gets the code of the error of a deferred send.", "quantifier": "every function with an error object, every failure", "why_tests_cant": "failures of the library underneath are hard to provoke", "anchors": ["include/salticidae/util.h: SALTICIDAE_CERROR_TRY, SALTICIDAE_CERROR_CATCH, SalticidaeError", "src/network.cpp: msgnetwork_reg_error_handler"]}
{"id": "C108", "title": "The pool closes only descriptors it holds", "statement": "Whatever is listened to, connected, accepted, terminated, stopped and destroyed, and whatever fails: each descriptor the library closes is one it opened and has not closed since; descriptors of the rest of the process, which may reuse numbers, are never closed.", "quantifier": "every history of calls, every answer of the kernel, every reuse of descriptor numbers", "why_tests_cant": "closing a descriptor of somebody else shows only when numbers are reused in between", "anchors": ["src/conn.cpp: _listen, _connect, accept_client, del_conn, release_conn", "include/salticidae/conn.h: stop_workers, stop, ~ConnPool"]}
{"id": "C109", "title": "A destroyed network holds no descriptor", "statement": "After a network object is destroyed every socket it opened is closed.", "quantifier": "every history of calls, every answer of the kernel", "why_tests_cant": "needs failing system calls", "anchors": ["src/conn.cpp: _listen, _connect, accept_client", "include/salticidae/conn.h: stop_workers, ~ConnPool"]}
{"id": "C110", "title": "stop() gives the port back", "statement": "After stop() no socket of the network is open, in particular the port it listened to can be bound again.", "quantifier": "every history of calls", "why_tests_cant": "tests destroy the network right after stop()", "anchors": ["include/salticidae/network.h: MsgNetwork::stop", "include/salticidae/conn.h: stop_workers, stop"]}
{"id": "C111", "title": "A network is bound to at most one port, that of its last listen()", "statement": "At any time the network holds at most one bound socket, bound to the port given to the last call of listen().", "quantifier": "every history of calls, every answer of the kernel", "why_tests_cant": "needs failing system calls", "anchors": ["src/conn.cpp: _listen"]}
{"id": "C112", "title": "A listen() that throws leaves no port bound", "statement": "If listen() throws, the network holds no bound socket afterwards.", "quantifier": "every answer of the kernel", "why_tests_cant": "needs failing system calls", "anchors": ["src/conn.cpp: _listen"]}
{"id": "C113", "title": "listen() and connect_sync() return or throw", "statement": "Every call of listen() or connect_sync() is answered once, in the order of the calls.", "quantifier": "every history of calls, before start(), between start() and stop(), and after", "why_tests_cant": "a call that never returns cannot be told from a slow one", "anchors": ["include/salticidae/conn.h: listen, connect_sync, start, stop_workers"]}
{"id": "C114", "title": "A network works between start() and stop() only", "statement": "Before start() and after stop() the network opens no socket, answers no call and starts no thread; a second start() has no effect.", "quantifier": "every history of calls", "why_tests_cant": "absence of an effect cannot be observed in finite time", "anchors": ["include/salticidae/conn.h: start, stop_workers, stop"]}
{"id": "C115", "title": "A connection that is over is given up", "statement": "Once a connection is closed and no task is left in any queue, nothing inside the library refers to it: no entry of the pool, no task and no callback of its event objects. If the user holds no reference either, it is freed.", "quantifier": "every history of calls, network events and interleavings of the threads, while the pool is not stopped", "why_tests_cant": "a reference kept after a rare interleaving shows as slow growth of memory only", "anchors": ["src/conn.cpp: disp_terminate, del_conn, worker_terminate", "include/salticidae/conn.h: Worker::feed, unfeed, enable_send_buffer"]}
{"id": "C116", "title": "Results of tasks are destroyed once, as what they are", "statement": "Every value a task stores with set_result is destroyed at most once, by the deleter of its own type and after it was made, whether it is replaced, thrown away with an exception, delivered, moved, assigned or never asked for. When no Result object is left, every value has been destroyed.", "quantifier": "every history of calls, tasks setting any number of results of any types and throwing or not, moves and assignments of the results (also to themselves), stop() and the destructor at any time, any content of a moved-from deleter", "why_tests_cant": "a double or missing deletion shows only under a memory checker and only on the path taken; the content of a moved-from std::function differs between libraries", "anchors": ["include/salticidae/event.h: ThreadCall::Result, Handle::set_result, ThreadCall::call, async_call"]}
{"id": "C117", "title": "A call's result is what its task set last, or its exception", "statement": "The result of a call is the last value its task set, null if it set none, the exception it threw, or 'not available' if the ThreadCall was stopped before. Moving or assigning a Result carries this over unchanged and leaves the source empty; other results do not change.", "quantifier": "every history as in C116", "why_tests_cant": "depends on the order of moves and swaps inside the class over arbitrarily long histories", "anchors": ["include/salticidae/event.h: ThreadCall::Result, Handle, ThreadCall::ThreadCall, call"]}
{"id": "C118", "title": "A waiting caller returns with the value notified and is not missed", "statement": "wait() returns only after notify() and with the value given to it, whatever spurious wake-ups there are; notify() does not touch the notifier after wait() has returned, though it then goes out of scope; and the caller can always return without a spurious wake-up.", "quantifier": "every interleaving of the two threads", "why_tests_cant": "lost wake-ups and use of a dead notifier depend on timing", "anchors": ["include/salticidae/event.h: ThreadNotifier"]}
{"id": "C119", "title": "The statistics count the messages sent", "statement": "While nothing is under way, get_nsent() and get_nsentb() are the number and the payload bytes of the messages the connection accepted for sending.", "quantifier": "every interleaving of any number of sending threads and the handlers' thread, any lengths", "why_tests_cant": "needs refused messages and exact counting over concurrent senders", "anchors": ["include/salticidae/network.h: MsgNetwork::_send_msg, Conn::get_nsent, get_nsentb"]}
{"id": "C120", "title": "The statistics count the messages handled", "statement": "While nothing is under way, get_nrecv() and get_nrecvb() are the number and the payload bytes (modulo 2^64) of the messages handed to a handler; messages without a handler do not count.", "quantifier": "every interleaving as in C119", "why_tests_cant": "needs exact counting over concurrent threads", "anchors": ["include/salticidae/network.h: MsgNetwork::MsgNetwork, Conn::get_nrecv, get_nrecvb"]}
{"id": "C121", "title": "Clearing the statistics leaves numbers and bytes of the same messages", "statement": "After clear_msgstat() the counters speak of the messages since then: there are no bytes without a message.", "quantifier": "every interleaving of clear_msgstat() with sending and receiving", "why_tests_cant": "depends on timing within a few instructions", "anchors": ["include/salticidae/network.h: Conn::clear_msgstat"]}
{"id": "C122", "title": "A handler that throws ends only its own connection", "statement": "When the handler of a message throws, or the message cannot be parsed, the connection it came from is terminated and nothing else happens: the process goes on, the other messages are handled in the order they came, and no other connection is terminated.", "quantifier": "every program of handlers, every order of registrations, messages and handling", "why_tests_cant": "tests have handlers that throw one kind of exception; what an uncaught one does to the other connections needs a run of the whole process", "anchors": ["include/salticidae/network.h: MsgNetwork::MsgNetwork, reg_handler, set_handler"]}
{"id": "C123", "title": "Handlers may register handlers", "statement": "A handler may register handlers, for any opcode. Each message goes to the handler registered last, by the user or by an earlier handler, when it is handled, and is skipped when there is none; no destroyed handler is used.", "quantifier": "every program of handlers as in C122", "why_tests_cant": "use of a handler destroyed by its own replacement shows only under a memory checker", "anchors": ["include/salticidae/network.h: MsgNetwork::MsgNetwork, reg_handler, set_handler"]}
{"id": "C124", "title": "Threads do not use the same part of a connection at the same time", "statement": "At no time may two threads (user, dispatcher, workers) access the same unprotected variable of a connection with one of them writing it: connections may be made, used, terminated and asked for their certificate from callbacks without further locking.", "quantifier": "every interleaving of the threads, every number of connections and workers, TLS or not", "why_tests_cant": "a race is undefined behaviour; a test run shows only one interleaving and may work by luck", "anchors": ["src/conn.cpp: ConnPool::worker_terminate, disp_terminate, conn_server, accept_client, release_conn", "include/salticidae/conn.h: Conn::get_peer_cert, Worker::feed, ConnPool::update_conn, on_worker_teardown"]}
{"id": "C125", "title": "The table of peers is used safely from any thread", "statement": "send_msg to a peer may be called from any thread while peers are added, removed, connected and reconnected: no peer is used after it was destroyed, every call answers as if it had happened at one moment between its start and its end, the table changes exactly as the calls say, and no two threads access the same unprotected variable with one of them writing it.", "quantifier": "every interleaving of the dispatcher and any number of user threads, every sequence of calls, every choice of the lock between readers and writers", "why_tests_cant": "the window between finding a peer and using it is a few instructions; a race need not show at all", "anchors": ["include/salticidae/network.h: PeerNetwork::add_peer, del_peer, conn_peer, set_peer_addr, get_peer_conn, has_peer, _send_msg, _multicast_msg, finish_handshake, ping_handler, pong_handler, on_dispatcher_setup"]}
{"id": "C126", "title": "The lock of the table of peers delays no one for ever", "statement": "As long as a call on the table of peers is under way, some thread can go on; once no new calls come all calls end, after a bounded number of steps; and adding or removing a peer is not delayed for ever by threads that keep sending.", "quantifier": "every interleaving of the dispatcher and any number of user threads; both kinds of shared lock (with or without preference for writers)", "why_tests_cant": "a deadlock needs one interleaving among very many; endless delay cannot be seen in a finite test", "anchors": ["include/salticidae/network.h: PeerNetwork::known_peers_lock, add_peer, del_peer, _send_msg, _multicast_msg"]}
{"id": "C127", "title": "Clients can be sent to from any thread", "statement": "send_msg with a client's address may be called from any thread while clients come and go: it does not use an entry of the table that was destroyed, and a client that is connected before and after reconnecting is found throughout.", "quantifier": "every interleaving of the dispatcher and any number of user threads, every sequence of connections and sends", "why_tests_cant": "the window between looking the client up and using the entry is a few instructions", "anchors": ["include/salticidae/network.h: ClientNetwork::on_dispatcher_setup, on_dispatcher_teardown, _send_msg, _send_msg_deferred"]}
{"id": "C128", "title": "A live peer is not given up", "statement": "If the handshake ends in time, the peer answers every heartbeat ping in time, and no thread is held up for too long, compared with the configured timeout, then a peer's connection is never ended by its timeout, and pings keep being sent at the agreed pace.", "quantifier": "all ping periods, timeouts, delays and answer times with handshake + delays < timeout, 1.5 periods + delays < timeout, answer + delays < timeout; every interleaving of the three threads", "why_tests_cant": "needs every pattern of delays over unbounded time; a test shows one pattern for seconds", "anchors": ["include/salticidae/network.h: PeerNetwork::tcall_reset_timeout, on_worker_setup, reset_ping_timer, send_ping, ping_timer, finish_handshake, pong_handler"]}
{"id": "C129", "title": "A dead peer is found", "statement": "When nothing has been heard from the other side of a PeerNetwork connection for one and a half ping periods plus the timeout (plus delays of the threads), the connection has been ended.", "quantifier": "all ping periods, timeouts and delays; every interleaving, including pongs that come unasked", "why_tests_cant": "the bound must hold for every pattern of timers and messages, not for one run", "anchors": ["include/salticidae/network.h: PeerNetwork::tcall_reset_timeout, on_worker_setup, send_ping, ping_timer, pong_handler"]}
{"id": "C130", "title": "Heartbeats are not sent too often", "statement": "Any two heartbeat pings over one connection are at least a ping period apart (less the age of the event loop's clock), whatever pongs the other side sends, asked for or not.", "quantifier": "all runs; every other side, including one that floods with pongs", "why_tests_cant": "a flood of pongs in every order with the timer cannot be enumerated", "anchors": ["include/salticidae/network.h: PeerNetwork::reset_ping_timer, send_ping, ping_timer, pong_handler"]}
{"id": "C131", "title": "A PeerNetwork connection in use is not timed out", "statement": "A connection of a PeerNetwork over which messages keep coming, with less than the timeout between them, is not ended by the timeout; the timeout does not depend on how busy the user's thread is.", "quantifier": "all runs", "why_tests_cant": "needs unbounded time and all patterns of messages", "anchors": ["include/salticidae/network.h: PeerNetwork::on_dispatcher_setup, tcall_reset_timeout, on_worker_setup, pong_handler"]}
{"id": "C132", "title": "A node that dials a waiting node gets connected", "statement": "If two nodes have registered each other, one has set the other's address and called conn_peer with a non-zero number of attempts, and the other waits, then the attempt made leads to a connection: with no failure of the network or the random source and a nonce below the passive one, in whatever order threads run and whatever messages the users send meanwhile, each peer callback is called once, saying connected, nothing is ended or refused or undefined, the work comes to an end, and at its end both are connected by that connection.", "quantifier": "all interleavings of the events of both nodes, any heartbeats and user messages, before, during and after the handshake; one attempt", "why_tests_cant": "unboundedly many interleavings of two processes", "anchors": ["include/salticidae/network.h: PeerNetwork::conn_peer, start_active_conn, on_dispatcher_setup, ping_handler, pong_handler, finish_handshake, send_ping"]}
{"id": "C133", "title": "A debug build is not stopped by an assertion about peers", "statement": "However peers are added, given addresses, dialled and deleted, and whatever the other ends send or fail to send, no assertion that the peer network makes about peers and their connections fails, so that a program built with assertions goes on where one built without them would.", "quantifier": "every history of user calls, timers, incoming connections and messages, for any number of peers and any ids of peers and addresses", "why_tests_cant": "the assertions relate connections of different age (the dialled one, the incoming one, the established one) that only an unlucky order of timers, messages and calls sets against each other; a test runs with delays far below the retry delay", "anchors": ["include/salticidae/network.h: PeerNetwork: on_dispatcher_teardown, finish_handshake, start_active_conn, ping_handler, pong_handler"]}
{"id": "C134", "title": "Whatever breaks, a node that keeps dialling a waiting node gets connected in the end", "statement": "Two nodes have registered each other; one has set the other's address and called conn_peer with a negative number of attempts, and the other waits. Then connections break at either end, are refused, are dialled anew, also while an earlier attempt is under way. Nothing undefined happens, no error escapes, no unknown peer is reported; whenever nothing is left to do, both have each other as connected by one live connection, or the dialling node says it is not connected and its retry timer runs; both agree on being connected; and the next attempt that nothing disturbs connects them.", "quantifier": "all finite histories of dials, breaks, refusals, messages, heartbeats and user messages of two nodes, in all orders, with any number of connections", "why_tests_cant": "a test cannot have a connection fail between any two steps of two processes, nor overlap attempts in all the ways the retry timer allows", "anchors": ["include/salticidae/network.h: PeerNetwork::start_active_conn, on_dispatcher_setup, on_dispatcher_teardown, ping_handler, pong_handler, finish_handshake; the retry timer in conn_peer", "src/conn.cpp: ConnPool::Conn::_recv_data, _send_data, ConnPool::worker_terminate, disp_terminate"]}
{"id": "C135", "title": "A peer is who it says it is", "statement": "A peer is reported connected, and get_peer_conn gives a connection, only over a connection whose other end has shown that peer's id: by its certificate, or, where ids come from addresses, by the address dialled or claimed. With certificates, a message sent to a peer is only ever put in the queue of a connection with that peer's certificate, also if it waited for a reconnection. A connection to or from someone not registered is ended, with the error SALTI_ERROR_PEER_NOT_MATCH or a call of the unknown-peer callback. The id that get_peer_id() of a connection in use gives is the one its other end has shown.", "quantifier": "all histories of calls, connections, certificates, messages, timers and tear-downs, with any number of peers", "why_tests_cant": "a test uses honest nodes; the claim is about what any node, with any certificate, at any address, can be taken for", "anchors": ["include/salticidae/network.h: PeerNetwork::get_peer_id, on_dispatcher_setup, start_active_conn, ping_handler, pong_handler, finish_handshake; PeerNetwork::Conn::get_peer_id"]}
{"id": "C136", "title": "The connection of a connected peer is ended only for a reason of that peer", "statement": "With certificates, while a peer is connected the network itself ends its connection only because the user has called del_peer or conn_peer for that very peer, or because that peer, showing its certificate, has made a new connection: nothing done for, or by, another peer, a stranger, or an unanswered connection ends it. (An end by the other side, by the system, or by a user's terminate() on the connection is not the network's.)", "quantifier": "all histories of calls, connections, certificates, messages, timers and tear-downs, with any number of peers", "why_tests_cant": "a test connects a few honest nodes, each at its own address; the claim is about every other peer and stranger, at any address, with any certificate", "anchors": ["include/salticidae/network.h: PeerNetwork::start_active_conn, replace_pending_conn, ping_handler, pong_handler, on_dispatcher_setup, finish_handshake, conn_peer, del_peer"]}
{"id": "C137", "title": "Two peers do not share a connection, and a peer whose connection is over does not stay connected", "statement": "No two peers are connected over one connection, so that what is sent to one of them does not go to the other. When the connection of a connected peer is torn down, the peer is disconnected and peer_cb(conn, false) is called for it, with that connection; it does not count as connected for ever (never dialled again, messages to it given to a connection that is closed).", "quantifier": "all histories of calls, connections, certificates, messages, timers and tear-downs, with any number of peers, with and without certificates", "why_tests_cant": "a test has honest nodes that answer for themselves only; the claim is about every other end, every address, and every order of deletions, attempts and losses", "anchors": ["include/salticidae/network.h: PeerNetwork::on_dispatcher_teardown, finish_handshake, ping_handler, pong_handler, start_active_conn, del_peer"]}
{"id": "C138", "title": "A peer is dialled when conn_peer says it is", "statement": "After conn_peer with a non-zero number of attempts, for a registered peer with an address, the first attempt is made without delay, or, if the peer was connected, as soon as that connection has ended; a peer that stays unconnected is dialled again and again, with at least retry_delay and at most one and a half of it between attempts, or after the loss of a connection; and an attempt is made however small the number asked for.", "quantifier": "all histories of calls, connections, messages, timers and passing of time, for any delays and any numbers of attempts, with any number of peers", "why_tests_cant": "a bound on time in every history, with random delays; a test sees a few histories and must allow for slack", "anchors": ["include/salticidae/network.h: PeerNetwork::conn_peer, on_dispatcher_teardown, finish_handshake", "src/util.cpp: gen_rand_timeout"]}
{"id": "C139", "title": "A network can be destroyed while it works", "statement": "A network object can be destroyed at any time, also while its threads accept, read from and close connections and messages wait to be sent: no thread uses a part of the object that has been destroyed, the process is not aborted, the destructor returns, and when it has returned no thread of the network runs and every connection it accepted or dialled has been closed, once.", "quantifier": "all kinds of networks, any number of worker threads, every state they can be in when the destructor is called and every order in which threads and destructor go on", "why_tests_cant": "the use happens only if a thread gets to its next task in the microseconds between two steps of a destructor; a test destroys idle networks", "anchors": ["include/salticidae/conn.h: ~ConnPool, stop, stop_workers, start, Worker", "include/salticidae/network.h: ~MsgNetwork, ClientNetwork (no destructor), ~PeerNetwork"]}
{"id": "C140", "title": "An id names one peer", "statement": "The id that PeerId makes of an address is the same on every machine; ids of two addresses, of two certificates, and of an address and a certificate differ, unless SHA-256 gives two different sequences of bytes the same digest; and the id by which a network knows a peer depends on its certificate alone if TLS is on and ids are by certificate, and on its address alone otherwise.", "quantifier": "all addresses, certificates, byte orders of the hosts, and all digest functions", "why_tests_cant": "a test compares a few ids; the claim is that no two peers are ever mixed up by the encoding of what is hashed", "anchors": ["include/salticidae/network.h: PeerId, PeerNetwork::_get_peer_id", "include/salticidae/stream.h: get_hash, DataStream::get_hash, Blob", "include/salticidae/netaddr.h: NetAddr::serialize"]}
{"id": "C141", "title": "Certificates are checked as configured", "statement": "With tls_skip_ca_check on (the default) a TLS connection is accepted exactly if the other end owns the key of the certificate it shows; with it off and no callback exactly if, besides, the certificate is in time and from an issuer the user trusts; with a callback, as the callback says. A certificate made by create_self_signed_from_pubkey is accepted by those who trust its key and check.", "quantifier": "all certificates, times of making and checking, sets of trusted issuers, callbacks", "why_tests_cant": "tests use the default, under which no certificate is ever refused", "anchors": ["include/salticidae/crypto.h: _skip_CA_check, X509::create_self_signed_from_pubkey, TLSContext, TLSContext::set_verify, TLS::get_peer_cert", "include/salticidae/conn.h: ConnPool::Config, ConnPool::ConnPool"]}
{"id": "C142", "title": "After a fatal error the network says so and goes down in order", "statement": "If a task of one of the network's threads fails with a fatal error, the error handler is called with it, once for each such error; from then on no operation is executed: callers who wait get an exception instead of waiting for ever, no connection is set up, none is accepted or dialled, and the worker threads end. stop() still returns, and afterwards no thread is left and every connection has been closed, once.", "quantifier": "any number of worker threads, every order of tasks, errors, connections, timers and calls, errors in any of the threads at any time, also several", "why_tests_cant": "fatal errors come from failing system calls; a test can hardly provoke one in a chosen thread at a chosen time, let alone two", "anchors": ["include/salticidae/conn.h: ConnPool::ConnPool (disp_error_cb, worker_error_cb), Worker, stop_workers", "include/salticidae/event.h: ThreadCall", "src/conn.cpp: accept_client, conn_server, worker_terminate", "include/salticidae/network.h: PeerNetwork::conn_peer"]}
{"id": "C143", "title": "A closed connection is freed", "statement": "The object of a connection is shared by handles. While the connection is open the network keeps a handle, so that the object is there whenever a thread serves it. Once its socket has been closed and the threads have done what was posted, the network keeps no handle of it any more - in its table, in a posted task, or in a callback of one of its events - so that the object is freed as soon as the user has dropped theirs; closed connections do not pile up in memory.", "quantifier": "all numbers of workers, with and without TLS, all interleavings of the user thread, the dispatcher and the workers, all results of callbacks and of the kernel", "why_tests_cant": "A callback owned by a connection's event holds a handle of the connection itself, so one forgotten or late registration makes a cycle no one frees; nothing fails, memory just grows. Which of registration and clean-up comes last depends on how three threads interleave.", "anchors": ["include/salticidae/conn.h: ConnPool::Conn, Worker::feed, enable_send_buffer, on_worker_teardown", "src/conn.cpp: worker_terminate, disp_terminate, conn_server, del_conn, release_conn"]}
{"id": "C144", "title": "No callback holds up its loop for long", "statement": "The connections of a worker share its loop, and so do the queues of the user's loop. What one of them does before the others get their turn is limited: one callback makes at most max_recv_buff_size receive calls on a connection and so takes at most max_recv_buff_size times recv_chunk_size bytes and queues only the messages in what it buffers; one call takes at most burst_size messages, or posted tasks, from a queue; and there is a limit on the send calls made in one callback.", "quantifier": "all configurations, byte streams, results of the kernel, numbers of messages and tasks, and writers adding to a queue at any moment", "why_tests_cant": "a test sees a starved connection only if a fast enough peer or writer keeps one callback busy without end", "anchors": ["include/salticidae/network.h: on_read, the handler of incoming_msgs", "include/salticidae/event.h: ThreadCall, MPSCQueueEventDriven", "src/conn.cpp: _recv_data, _send_data"]}
{"id": "C145", "title": "The help text lists the options", "statement": "Config::print_help prints one line for each option, in the order in which they were added, with its name, its letter if it has one, and its text, and the texts begin in the same column.", "quantifier": "all sets of options with printable names, letters and texts, on machines on which char is signed and on which it is not; tab stops every eight columns", "why_tests_cant": "alignment depends on the longest name modulo eight and on which options have letters; the letter on the machine", "anchors": ["src/util.cpp: Config::print_help", "include/salticidae/util.h: Config::Opt, Config::add_opt"]}
{"id": "C146", "title": "A queue that is destroyed gives back what it holds", "statement": "When nobody uses a queue (MPSCQueue) any more and it is destroyed, the destructor comes to an end, each block of memory the queue ever allocated is freed exactly once and not used afterwards, and each element still in the queue - put in by enqueue or rewind and not taken out - is destroyed exactly once. Nothing that was accepted disappears before that.", "quantifier": "all block sizes, pool sizes, numbers of producers, with and without allocation on demand, all interleavings before the destruction, all spurious failures of compare-exchange", "why_tests_cant": "blocks move between the chain, the pool and the hands of threads; one lost in a rare interleaving is a leak nothing reports", "anchors": ["include/salticidae/queue.h: ~MPMCQueue, FreeList::pop, FreeList::push, _enqueue"]}
{"id": "C147", "title": "A queue that may allocate stays in order and goes on accepting", "statement": "When enqueue may allocate blocks (unbounded = true), the values come out in the order in which they were accepted, and an enqueue call that is begun while nobody else uses the queue returns, with true.", "quantifier": "for all block sizes, pool sizes, numbers of producers, interleavings of enqueue, dequeue and rewind calls, and placements of spurious compare-and-swap failures", "why_tests_cant": "the interleavings that matter need a thread to be preempted between two adjacent stores while others go round the pool of blocks; a test almost never meets them, and one that does not return cannot be told from a slow one", "anchors": ["include/salticidae/queue.h:110-164", "include/salticidae/queue.h:33-86"]}
{"id": "C148", "title": "A timer is started with the delay given", "statement": "TimerEvent::add(t) and TimedFdEvent::add(events, t) start the timer with the whole number of milliseconds in t seconds; a delay written as a whole number of milliseconds is that number.", "quantifier": "all doubles t from 0 to 2^32 seconds, all whole numbers of milliseconds up to 2^40", "why_tests_cant": "which decimal fractions of a second come out a millisecond short depends on the binary representation of each; tests use a few round delays", "anchors": ["include/salticidae/event.h: TimerEvent::add, TimedFdEvent::add", "src/event.cpp: timerev_add"]}
{"id": "C149", "title": "A randomised delay lies between the delay and one and a half of it", "statement": "gen_rand_timeout(base, alpha) returns a number between base and base + alpha * base (alpha is 0.5 by default), so that retries and pings are never due before the period given and never later than one and a half of it.", "quantifier": "all finite doubles base and alpha from 0 to 2^500, all results of rand()", "why_tests_cant": "rand() takes 2^31 values and the arithmetic rounds four times; whether the result can fall below base by a rounding cannot be sampled", "anchors": ["src/util.cpp: gen_rand_timeout", "include/salticidae/network.h: uses in on_teardown, reset_ping_timer, conn_peer"]}
{"id": "C150", "title": "A stopwatch measures the time that went by", "statement": "After start() and stop() of an ElapsedTime, elapsed_sec is the wall time and cpu_elapsed_sec the processor time between the two calls, up to a few microseconds.", "quantifier": "all times of day until 2106, all values of clock()", "why_tests_cant": "the error depends on how long the process has been running; a test runs for seconds", "anchors": ["src/util.cpp: ElapsedTime::start, ElapsedTime::stop"]}
{"id": "C151", "title": "A number of seconds is taken apart into seconds and microseconds", "statement": "sec2tv(t, tv) sets tv to whole seconds and to microseconds from 0 to 999999 that together differ from t by no more than about a microsecond.", "quantifier": "all doubles from 0 to 2^32", "why_tests_cant": "the product could round up to a million for a fraction just below one; such doubles are not met by chance", "anchors": ["src/util.cpp: sec2tv"]}
{"id": "C152", "title": "A decimal option gets the number written, or the setting is refused with the library's error", "statement": "Setting an option made with OptValDouble to a text either stores the double nearest to the number that the whole text denotes, or throws SalticidaeError and stores nothing.", "quantifier": "every text", "why_tests_cant": "the set of texts is infinite, and which double is nearest depends on all their digits; the library's tests set no decimal option", "anchors": ["include/salticidae/util.h: OptValDouble::set_val"]}
{"id": "C153", "title": "A log file holds every line logged, whole and in order", "statement": "A Logger made with the name of a file writes each message to that file as one line (time, prefix and kind in brackets, text). After any sequence of opening loggers on the file, logging and closing them, the file holds the lines of all messages, whole and in the order of the calls.", "quantifier": "every sequence of loggers on one file, messages, kinds and results of write(2)", "why_tests_cant": "tests log to the terminal, once; what a second run, a second logger or a partial write does to the lines before is in no test", "anchors": ["include/salticidae/util.h: Logger", "src/util.cpp: Logger::write, info, debug, warning, error"]}
{"id": "C154", "title": "Times in a log sort as texts the way they sort as times", "statement": "The time at the beginning of each log line, compared as text with that of another line, is smaller exactly if the line was logged earlier, to the microsecond; so lines of several logs can be merged by sorting them.", "quantifier": "every two times, every time zone", "why_tests_cant": "two times differ in any of seven fields, and tests log at the time they run", "anchors": ["src/util.cpp: get_current_datetime"]}
{"id": "C155", "title": "The short form of an id in log lines tells peers apart", "statement": "get_hex10 of the id of a peer, by which log lines name it, is the beginning of the id in hexadecimal, the same on every machine, and different ids have different short forms.", "quantifier": "every two ids, every byte order of the host", "why_tests_cant": "there are 2^256 ids; tests see a handful", "anchors": ["include/salticidae/util.h: get_hex10", "include/salticidae/stream.h: get_hex"]}
