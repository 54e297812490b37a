-Q theories Verif
theories/Base.v
theories/Tag.v
theories/TagSpec.v
theories/TagProofs.v
theories/TagProps.v
theories/Pqueue.v
theories/PqueueSpec.v
theories/PqueueProofs.v
theories/PqueueTag.v
theories/PqueueTagSpec.v
theories/PqueueTagProofs.v
theories/PqueueProps.v
theories/Vector.v
theories/VectorSpec.v
theories/VectorProofs.v
theories/Deque.v
theories/DequeSpec.v
theories/DequeProofs.v
theories/Hashset.v
theories/HashsetSpec.v
theories/HashsetProofs.v
theories/Hashmap.v
theories/HashmapSpec.v
theories/HashmapProofs.v
theories/MixedRadix.v
theories/MixedRadixSpec.v
theories/MixedRadixProofs.v
theories/Semaphore.v
theories/SemaphoreProofs.v
theories/ContainersProps.v
theories/Token.v
theories/TokenSpec.v
theories/TokenProofs.v
theories/TokenProps.v
theories/Schedule.v
theories/ScheduleSpec.v
theories/ScheduleProofs.v
theories/ScheduleProps.v
theories/Runtime.v
theories/RuntimeSpec.v
theories/RuntimeProofs.v
theories/RuntimeProps.v
theories/Reactions.v
theories/ReactionsSpec.v
theories/ReactionsProofs.v
theories/ReactionsProps.v
theories/Multiport.v
theories/MultiportSpec.v
theories/MultiportProofs.v
theories/MultiportProps.v
theories/Net.v
theories/NetSpec.v
theories/NetProofs.v
theories/NetProps.v
theories/RtiDelays.v
theories/RtiDelaysSpec.v
theories/RtiDelaysProofs.v
theories/RtiDelaysProps.v
theories/Rti.v
theories/RtiSpec.v
theories/RtiProofs.v
theories/RtiProps.v
theories/Federation.v
theories/FederationSpec.v
theories/FederationProofs.v
theories/FederationProps.v
theories/TimeText.v
theories/TimeTextSpec.v
theories/TimeTextProofs.v
theories/TimeTextProps.v
theories/PortStatus.v
theories/PortStatusSpec.v
theories/PortStatusProofs.v
theories/PortStatusProps.v
theories/Deadline.v
theories/DeadlineSpec.v
theories/DeadlineProps.v
theories/Clock.v
theories/ClockProps.v
theories/ClockSync.v
theories/ClockSyncSpec.v
theories/ClockSyncProps.v
theories/CText.v
theories/Args.v
theories/ArgsSpec.v
theories/ArgsProps.v
theories/Regex.v
theories/RegexProofs.v
theories/Address.v
theories/AddressSpec.v
theories/AddressProps.v
theories/Admission.v
theories/AdmissionProps.v
theories/Trace.v
theories/TraceSpec.v
theories/TraceProps.v
theories/SchedSpec.v
theories/SchedNP.v
theories/SchedNPProofs.v
theories/SchedNPProps.v
theories/SchedGEDF.v
theories/SchedGEDFSpec.v
theories/SchedGEDFProofs.v
theories/SchedGEDFProps.v
theories/AdaptiveData.v
theories/AdaptiveDataProps.v
theories/SchedAdaptive.v
theories/SchedAdaptiveProofs.v
theories/SchedAdaptiveProps.v
theories/TagBarrier.v
theories/TagBarrierSpec.v
theories/TagBarrierProofs.v
theories/TagBarrierProps.v
theories/RequestStop.v
theories/RequestStopSpec.v
theories/RequestStopProofs.v
theories/RequestStopProps.v
theories/Watchdog.v
theories/WatchdogSpec.v
theories/WatchdogProofs.v
theories/WatchdogProps.v
theories/Modes.v
theories/ModesSpec.v
theories/ModesProofs.v
theories/ModesEventsProofs.v
theories/ModesSwitchProofs.v
theories/ModesProps.v
theories/RtiStop.v
theories/RtiStopSpec.v
theories/RtiStopProofs.v
theories/RtiStopProps.v
theories/RtiLocal.v
theories/RtiLocalSpec.v
theories/RtiLocalProofs.v
theories/RtiLocalProps.v
theories/Determinism.v
theories/DeterminismSpec.v
theories/DeterminismProofs.v
theories/DeterminismSched.v
theories/DeterminismProps.v
theories/Timers.v
theories/TimersSpec.v
theories/TimersProofs.v
theories/TimersProps.v
theories/Values.v
theories/ValuesSpec.v
theories/ValuesProofs.v
theories/ValuesProps.v
theories/ModeReactions.v
theories/ModeReactionsSpec.v
theories/ModeReactionsProofs.v
theories/ModeReactionsProps.v
theories/ThreadedLoop.v
theories/ThreadedLoopSpec.v
theories/ThreadedLoopProofs.v
theories/ThreadedLoopProps.v
theories/PlatformClock.v
theories/PlatformClockSpec.v
theories/PlatformClockProofs.v
theories/PlatformClockProps.v
theories/CriticalSection.v
theories/CriticalSectionSpec.v
theories/CriticalSectionProofs.v
theories/CriticalSectionProps.v
theories/PlatformSleep.v
theories/PlatformSleepSpec.v
theories/PlatformSleepProofs.v
theories/PlatformSleepProps.v
theories/PlatformThreads.v
theories/PlatformThreadsSpec.v
theories/PlatformThreadsProofs.v
theories/PlatformThreadsProps.v
theories/CondVar.v
theories/CondVarSpec.v
theories/CondVarProofs.v
theories/CondVarProps.v
theories/Progress.v
theories/ProgressSpec.v
theories/ProgressProofs.v
theories/ProgressProps.v
theories/FedData.v
theories/FedDataSpec.v
theories/FedDataProofs.v
theories/FedDataProps.v
theories/TraceFile.v
theories/TraceFileSpec.v
theories/TraceFileProofs.v
theories/TraceFileProps.v
theories/TraceCsv.v
theories/TraceCsvSpec.v
theories/TraceCsvProofs.v
theories/TraceCsvProps.v
theories/Provisional.v
theories/ProvisionalSpec.v
theories/ProvisionalProofs.v
theories/ProvisionalProps.v
theories/Decentralized.v
theories/DecentralizedSpec.v
theories/DecentralizedProofs.v
theories/DecentralizedProps.v
theories/Tardy.v
theories/TardySpec.v
theories/TardyProofs.v
theories/TardyProps.v
theories/PyPort.v
theories/PyPortSpec.v
theories/PyPortProofs.v
theories/PyPortProps.v
theories/PyRef.v
theories/PyRefSpec.v
theories/PyRefProofs.v
theories/PyRefProps.v
theories/RtiArgs.v
theories/RtiArgsSpec.v
theories/RtiArgsProofs.v
theories/RtiArgsProps.v
theories/Memory.v
theories/MemorySpec.v
theories/MemoryProofs.v
theories/MemoryProps.v
theories/Peers.v
theories/PeersSpec.v
theories/PeersProofs.v
theories/PeersProps.v
theories/Duet.v
theories/DuetSpec.v
theories/DuetProofs.v
theories/Join.v
theories/JoinSpec.v
theories/JoinProofs.v
theories/JoinProps.v
theories/Auth.v
theories/AuthSpec.v
theories/AuthProofs.v
theories/AuthProps.v
theories/ClockRounds.v
theories/ClockRoundsSpec.v
theories/ClockRoundsProofs.v
theories/ClockRoundsProps.v
theories/Departure.v
theories/DepartureSpec.v
theories/DepartureProofs.v
theories/DepartureProps.v
theories/Shutdown.v
theories/ShutdownSpec.v
theories/ShutdownProofs.v
theories/ShutdownProps.v
theories/PhysicalNet.v
theories/PhysicalNetSpec.v
theories/PhysicalNetProofs.v
theories/PhysicalNetProps.v
theories/StartGrants.v
theories/StartGrantsSpec.v
theories/StartGrantsProofs.v
theories/StartGrantsProps.v
theories/WaveFile.v
theories/WaveFileSpec.v
theories/WaveFileProofs.v
theories/WaveFileProps.v
theories/Sensor.v
theories/SensorSpec.v
theories/SensorProofs.v
theories/SensorProps.v
theories/PhysMessage.v
theories/PhysMessageSpec.v
theories/PhysMessageProofs.v
theories/PhysMessageProps.v
theories/Logging.v
theories/LoggingSpec.v
theories/LoggingProofs.v
theories/LoggingProps.v
theories/ThreadStart.v
theories/ThreadStartSpec.v
theories/ThreadStartProofs.v
theories/ThreadStartProps.v
theories/Chrome.v
theories/ChromeSpec.v
theories/ChromeProofs.v
theories/ChromeProps.v
theories/Audio.v
theories/AudioSpec.v
theories/AudioProofs.v
theories/AudioProps.v
theories/Influx.v
theories/InfluxSpec.v
theories/InfluxProofs.v
theories/InfluxProps.v
theories/AudioMac.v
theories/AudioMacSpec.v
theories/AudioMacProofs.v
theories/AudioMacProps.v
theories/Version.v
theories/VersionSpec.v
theories/VersionProps.v
theories/PortAbsent.v
theories/PortAbsentSpec.v
theories/PortAbsentProps.v
theories/Windows.v
theories/WindowsSpec.v
theories/WindowsProps.v
theories/ArduinoWait.v
theories/ArduinoWaitSpec.v
theories/ArduinoWaitProps.v
