# ros_control: formal model and proofs (Rocq/Coq 8.16.1)

What is modelled, how each property of `properties.jsonl` is stated and proved, and what is trusted.
(Generated by `tools/design.py` from `tools/design_head.md` and MANIFEST.json; edit those.)

## Layout (rocq/theories)

Files come in groups: `*Model.v` transcribes code (no proofs; every definition cites the lines of `/repo` it
models and names its simplifications), `*Spec.v` is the specification vocabulary, written without the model's
helpers, `*Proofs.v` and the like are lemmas, and `Props*.v` holds the property theorems, each followed
by `Print Assumptions` and by an `Example` showing that a non-trivial case meets the hypotheses.

| group | model of | files |
|---|---|---|
| maps | `std::map<std::string, _>`, `std::set` as sorted association lists | SMap, SMapProofs, HwTypes |
| controller manager | controller_base.h, robot_hw.h (conflict check), controller_manager.{h,cpp} as a step machine: one operation = one service call (or the part up to its wait loop), one evaluation of the wait loop, or one control cycle | Lifecycle, ConflictModel, CMModel; CMSpec; ConflictProofs, CMInv, CMTrace, CMCycle, CMSwitch, CMLife, CMSession, CMExcl, CMHooks, CMLoad, CMRest, CMFinal; PropsCM; CMSeqSpec; CMSeq, CMOnce, CMDo; PropsSeq |
| threads | controller_manager.cpp as interleaved atomic accesses (double buffer, waits, request vectors), direct C++ callers | RaceModel, RaceSpec, RaceProofs, PropsRace; ConcModel, ConcSpec, ConcProofs, PropsConc |
| hardware interfaces | resource_manager.h, hardware_resource_manager.h, interface_manager.h, controller.h, multi_interface_controller.h, robothw_interfaces.h | HwModel; HwSpec; HwProofs, HwMgr, HwBuilt, HwInit, HwClaims; PropsHw |
| handles | the handle classes of joint_state, actuator_state, joint_command, actuator_command, posvel, posvelacc, position_velocity_torque_gains, joint_mode, force_torque, imu headers as programs over shared storage; claim policy of every interface class | HandleModel; HandleSpec; HandleProofs; PropsHandle |
| combined robot | combined_robot_hw.{h,cpp} | CombModel, CombSpec, CombProofs, PropsComb |
| whole robot | controller manager, controllers, interfaces, conflict check and parts together: the operations of CMModel with claims made by HwModel, checked by ConflictModel and forwarded by CombModel | SysModel; SysSpec; SysProofs, SysInv, SysMain, SysRest, SysLoad; PropsSys |
| joint limits | joint_limits_interface.h, joint_limits.h, joint_limits_rosparam.h, joint_limits_urdf.h | LimModel; LimSpec, LimNearSpec, LimBackSpec; LimLaws, LimExact, LimDouble (arithmetic), LimProofs, LimRest, LimGain, LimDGain, LimMisc, LimLoop, LimNear, LimBack; PropsLim, PropsNear, PropsBack |
| transmissions | simple/differential/four_bar_linkage_transmission.h, transmission.h, transmission_interface.h | TransModel; TransSpec; TransProofs, TransHandle, TransExact, TransDouble, TransRound, TransRows, TransMake, TransFrame, RowSpec; PropsTrans, PropsMake, PropsRound |
| loading transmissions | transmission_parser.cpp, transmission_loader.cpp, the three transmission loaders, the interface providers, transmission_interface_loader.{h,cpp} | ParseModel, LoadModel; LoadSpec; ParseProofs, LoadProofs, LoadMain, LoadSep, LoadVars, LoadKept; PropsLoad |
| control loop | the read/limit/write loop of both mainpage.dox files, on the limit handles and transmission interfaces above | LoopModel; LoopSpec, SendSpec, FollowSpec; LoopProofs, LoopLimits, SendProofs, FollowProofs; PropsLoop, PropsSend, PropsFollow |
| interleaved manager | controller_manager.cpp: the two threads, one access per step, with the full state of the sequential manager | FineModel; FineSpec (atomic object, histories); FineBase, FineRel, FineLoop, FineManage, FineLock, FineSwitch, FineMain; PropsFine; FineAccess (which members each step reads and writes), FineFrame, FineWait; PropsFineRace; FineProgress; PropsFineProgress |
| joints of a robot | updateJointInterfaces of the interface providers, on the interface managers of the hardware model | JointHwModel; JointHwSpec; JointHwProofs; PropsJoint |
| command line | controller_manager_interface.py, scripts controller_manager, spawner, unspawner, controller_group | ScriptModel, SpawnModel (spawner's start-up and threads), CliModel and GroupModel (command words and messages); ScriptSpec, CliSpec, GroupSpec, TalkSpec; ScriptProofs, ScriptMain, ScriptConflict, ScriptRun, SpawnProofs, CliProofs, GroupProofs, TalkProofs; PropsScript, PropsSpawn, PropsCli, PropsGroup, PropsTalk |
| Python helpers | controller_manager_msgs/utils.py | UtilsModel; UtilsSpec; UtilsProofs; PropsUtils |
| graphical plugin | rqt_controller_manager: update_combo.py; controller_manager.py without drawing, as a machine driven by timers and user input | RqtModel; RqtSpec; RqtProofs, RqtMenu; PropsRqt |

## Method

* **Manager**: `step : cm -> op -> cm * list event * answer`; a history is a list of operations.  Everything the
  environment decides (times, hardware answers, prepareSwitch, conflict checks other than the default one, controller
  initialisation, plugin construction, `ros::ok()`) is a payload of the operations, so a theorem about all histories covers all
  behaviours of that code.  Properties are statements about the event trace (callbacks and hook calls), the answers and the
  reported list; the invariants are proved by induction over the history.
* **Threads**: the same code at the granularity of single accesses to the shared variables; a theorem ranges over all
  interleavings of the control loop with one lock holder (the lock holders exclude each other).
* **Whole robot**: `sys_step` runs the manager model with the answers computed by the hardware models; every history of it projects to a history
  of the manager (proved), so the manager theorems apply, and an invariant ties loaded controllers to the init functions they ran.
* **Hardware interfaces, combined robot, parser, Python**: functions over finite maps, trees, strings; characterised
  exactly (iff) by small inductive or first-order specifications.
* **Limits and transmissions**: written once over a dictionary of floating point operations.  The instance `exact` uses
  rational numbers with NaN (axiom free); the instance `double` is IEEE 754 binary64 from Flocq, with NaN, infinities, signed zeros and
  rounding.  Range properties are proved for doubles; algebraic ones (inverse maps, power) for exact numbers, with the
  rounding error bounded where stated (C84).
* **Loader**: an explicit memory, so that aliasing, null pointers and invalid accesses are outcomes of the model.
* **Scripts**: programs over service calls, executed against the manager model; `executes alone` means nobody else calls the manager,
  the hardware reports no failure and no call raises; control cycles happen at any time.
* **Refuted claims**: where the code violates what its documentation or a user would expect, the statement in
  `properties.jsonl` says so ("Known exception (proved reachable)"), a theorem with suffix `_refuted` gives a concrete witness, and the
  positive theorem states the boundary under which the property holds.

## Properties and theorems

@@TABLE@@

## Findings (defects and surprises of the code, each a theorem)

* Controller manager: a BEST_EFFORT request naming a running controller for start restarts it without stopping() (C08); a name given
  twice is started twice (C08); the call returns true on hardware error and on shutdown (C13); after a wall clock timeout
  before the first cycle doSwitch is still called (C16); a request abandoned at shutdown leaves dangling pointers to controllers (C76);
  BEST_EFFORT + start_asap stops and starts a controller named in both lists in
  every cycle, for any number of cycles (C79).
* Threads: list modified under iteration at the first cycle (C25) and at shutdown (C27); running controller destroyed by an unload during a
  reset cycle (C28); a second direct caller cancels a waiting request, whose caller is told "true" (C29); request vectors cleared while
  walked, on wall clock timeout (C80).
* Hardware interfaces: a single controller can conflict with itself (C34); stale combined interfaces, three ways (C38); handles
  registered after their interface are missing in the listing (C39).
* Handles: sensor handles accept null storage (C93); a command handle built from a default state handle is accepted and fails only when read
  (C94); actuator command interfaces record no claims, so two controllers on one actuator never conflict (C98).
* Combined robot: controllers that claim nothing through read-only interfaces are reported to no part (C41); no roll-back of prepareSwitch (C43);
  switchResult not delegated (C44), so controllers start while a part reports ONGOING or ERROR (C111).
* Limits: C48 (commands outside the limits when starting outside; velocity limit exceeded), C49 (gain above one, rounding), C50
  (pushing outwards exactly at the limit), C53, C54, C56 (first command after NaN unlimited), C58, C59, C131 (the way back to a soft limit stops short of it because of rounding).
* Transmissions: four-bar linkage does not conserve power (C63); accepted four-bar linkages can divide by zero after underflow (C65); handle
  constructor checks the absolute positions twice and the torque sensors never (C66); differential absolute-position map asserts on the wrong
  vector (C82); three misprints in the documentation of differential_transmission.h (lines 59, 71, 81; C83).  Through a differential, joints can leave their limits between two
  positions inside them if the actuators are not synchronised (C123).
* Loader: order dependence and partial loads (C68, C69, C70, C85-C87); joints created by transmissions are missing in the resource listing, so a part of a
  combined robot is not told of controllers that claim them (C116).
* Scripts: spawner leaves controllers running or loaded when its requests are refused (C72); help text of `controller_group spawn` (C73); `controller_group switch` reports loaded, never started controllers as being in an unknown state (C133);
  refused reload / refused stop followed by a second starting() of running controllers (C88, C90);
  a spawner shut down while loading or starting leaves controllers behind, even running ones (C121); `--no-timeout` with `--wait-for` raises a
  TypeError in Python 3 (spawner:170 compares with None; C122); the tool `controller_manager` exits with 0 whatever fails, and prints "Controllers
  restored to original state" also if they are not (C132).
* Python helpers: filter_by_resources with an empty list raises UnboundLocalError (C71); discovery lists duplicates, misses nested and keeps
  stale managers (C75).
* Graphical plugin: rows of one manager with the service proxies of another after a failed refresh, so that actions go to the wrong manager (C103); a manager that
  does not answer is shown with all its controllers uninitialized (C104); waiting and aborted controllers raise KeyError when drawn and have no menu (C106).

## Trusted base

* Coq's kernel (8.16.1) including `vm_compute`; the Coq standard library and Flocq (definitions and proved lemmas; axioms below).
* The transcription of the C++/Python code into the `*Model.v` files: the theorems are about the model.
* C++ semantics assumed: sequential consistency in the thread models (the C++ variables are plain, so the interleavings modelled are the best case; a
  data race found there is one in C++ too; C125 names all raced variables, so with those made atomic sequential consistency would be what C++ guarantees); for doubles IEEE 754 binary64 with round-to-nearest, no `-ffast-math`, no contraction to FMA, no x87
  extended precision; `std::min/max` as in the standard; `ros::Duration::toSec()` is the given double.
* External libraries, from their documentation: `ros::NodeHandle::getParam/hasParam`, `ros::ok`, pluginlib, TinyXML (the parser works on
  element trees; writing an element to text and parsing it again is the identity), `std::stod` (an oracle), urdf, rosgraph `make_global_ns`,
  `rosparam.list_params`, rosservice; QComboBox and QMenu of Qt (selection, signals, modality).
* Assertions are outcomes of their own; with NDEBUG an `Assertion` outcome is an invalid access.

### Axioms

@@AXIOMS@@

No theorem uses an axiom of any other library; nothing is assumed by this development itself.  (The build also loads, without any theorem
depending on them, the sealed constants of `Coq.Reals.Rdefinitions` and `Coq.ssr.ssrunder`, which are implementation details of these libraries'
module types.)

## Modelled simplifications

* The control loop of LoopModel.v is the one shown in the documentation; reading and motion of the hardware are covered for position commands (C123) and, with ideal actuators, for velocity commands (C136), the write also for effort commands (C135); its theorems use exact arithmetic.
* Manager model: load, unload, listings and the two ends of a switch are atomic with respect to control cycles. This is justified by the refinement theorem C124 (FineModel.v interleaves single accesses), and fails at the edges named by C25, C27, C28, C80;
  times are integers (nanoseconds); log output, diagnostics and the services' ROS transport are not modelled; callbacks cannot change the manager's own data.
* Interface managers form a tree (a manager registered with two parents, or with itself, is not modelled); type names stand for C++ types.  C38's
  positive theorem assumes orderly registration (`built`), which is spelled out in its statement.
* Initialisation bodies of controllers are arbitrary sequences of getHandle calls with arbitrary results; they do not register interfaces.
* Whole robot: the init functions of a `Controller<T>` use the interface they are given and no other; the copy of a part's manager kept in the list of parts
  has the registrations but not the combined interfaces cached later (filterControllerList does not read those).
* Transmission loader: no nested interface managers on the robot; third-party transmission types are not modelled.
* Scripts: sleeping, printing and argument parsing are left out (printing and command words of the tool controller_manager are in, C132), and waiting for services except in the spawner (C122); a call may raise at any time (then
  nothing is claimed).  rospy sets its shutdown flag before it runs the hook, in any thread (C121).

## Not modelled

The drawing of rqt_controller_manager (widgets, info popup, header menu), the test packages, demangling, controller and robot plugins themselves.
